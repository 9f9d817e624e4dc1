(** Proofs about M_Needy: a round of asking ends, and what an undisturbed
    round does. *)

From Coq Require Import List Bool Arith Lia.
From Verif Require Import M_Needy S_Needy P_Needy.
Import ListNotations.

(** ** A round ends *)

Definition left (s : state) : nat :=
  let k := length (clients s) in
  match srv s with
  | Idle => 0
  | Count i acc => (acc + 1) * (3 * k + 2) + 2 * (k - i) + 1
  | CountA i r acc => (acc + 1) * (3 * k + 2) + 2 * (k - i)
  | Pass ord todo acc any =>
      (acc + if any then 1 else 0) * (3 * length ord + 2) + 3 * length todo + 1
  | Seen ord i r todo acc any =>
      (acc + if any then 1 else 0) * (3 * length ord + 2) + 3 * length todo + 3
  | Try ord i todo acc any =>
      (acc + if any then 1 else 0) * (3 * length ord + 2) + 3 * length todo + 2
  end.

Lemma go_left l p q : go l p = Some q -> left (mkS l q) < left (mkS l p).
Proof.
  intros E. destruct p as [|i acc|i r acc|o t acc any|o i r t acc any|o i t acc any];
    cbn [go] in E; try discriminate E; unfold left; cbn [srv clients].
  - destruct (nth_error l i) as [c|] eqn:C; inversion E; subst. lia.
  - destruct (nth_error l i) as [c|] eqn:C; [|discriminate E].
    assert (i < length l) by (apply nth_error_Some; rewrite C; discriminate).
    destruct (acc <=? r + act c) eqn:Q; inversion E; subst.
    + apply Nat.leb_le in Q. nia.
    + apply Nat.leb_gt in Q. set (v := r + act c) in *.
      assert ((acc - v + 1) * (3 * length l + 2) <= (acc + 1) * (3 * length l + 2))
        by (apply Nat.mul_le_mono_r; lia).
      lia.
  - destruct t as [|i t].
    + destruct any; inversion E; subst; cbn [length]; nia.
    + destruct (nth_error l i) as [c|] eqn:C; inversion E; subst. cbn [length]. lia.
  - destruct (nth_error l i) as [c|] eqn:C; [|discriminate E].
    destruct (avail c <=? r); inversion E; subst; lia.
Qed.

Lemma own_left a s t : own a = true -> step a s = Next t -> left t < left s.
Proof.
  intros O E. destruct s as [l p]. destruct a; try discriminate O; cbn [step clients srv] in E.
  - destruct (go l p) as [q|] eqn:G; inversion E; subst. apply go_left, G.
  - destruct p as [|i acc| | | |]; try discriminate E.
    destruct ((i =? length l) && is_order ord (length l)) eqn:Q; inversion E; subst.
    apply andb_true_iff in Q. destruct Q as [_ Q]. unfold is_order in Q.
    apply andb_true_iff in Q. destruct Q as [Q _]. apply Nat.eqb_eq in Q.
    unfold left; cbn [srv clients]. rewrite Q. nia.
  - destruct p as [| | | | |o i todo acc any]; try discriminate E.
    destruct (nth_error l i) as [c|]; try discriminate E.
    unfold left; cbn [srv clients].
    destruct ok; inversion E; subst; cbn [srv].
    + destruct (acc - 1 =? 0) eqn:Z; [lia|]. apply Nat.eqb_neq in Z.
      replace (acc - 1 + 1) with acc by lia. destruct any; nia.
    + lia.
Qed.

Lemma rest_left a s t :
  own a = false -> (forall n, a <> Start n) -> step a s = Next t -> left t = left s.
Proof.
  intros O Ns E. destruct s as [l p]. destruct a; try discriminate O; cbn [step clients srv] in E.
  - exfalso; apply (Ns n eq_refl).
  - destruct p; try discriminate E. destruct (nth_error l i); try discriminate E.
    destruct (held c =? 0); try discriminate E. destruct (act c =? 0); inversion E; reflexivity.
  - destruct p; inversion E; reflexivity.
  - destruct p; try discriminate E. destruct (nth_error l i); try discriminate E.
    destruct (mid c); inversion E; reflexivity.
  - destruct (nth_error l i); try discriminate E. destruct (mid c); inversion E; subst.
    unfold left; cbn [srv clients]. rewrite upd_length. reflexivity.
  - destruct (nth_error l i); try discriminate E. destruct (mid c || _); try discriminate E.
    destruct (req c =? 0); inversion E; subst. unfold left; cbn [srv clients]. rewrite upd_length. reflexivity.
  - destruct (nth_error l i); try discriminate E. destruct (mid c || _); try discriminate E.
    destruct (req c =? 0); inversion E; subst. unfold left; cbn [srv clients]. rewrite upd_length. reflexivity.
  - destruct (nth_error l i); try discriminate E. destruct (mid c); inversion E; subst.
    unfold left; cbn [srv clients]. rewrite upd_length. reflexivity.
Qed.

Lemma run_left h s t :
  (forall n, ~ In (Start n) h) -> run h s = Next t ->
  length (filter own h) + left t <= left s.
Proof.
  revert s. induction h as [|a h IH]; intros s Ns E; cbn [run] in E.
  - inversion E; subst. cbn. lia.
  - destruct (step a s) as [| |u] eqn:S; try discriminate E.
    assert (Ns' : forall n, ~ In (Start n) h) by (intros n I; apply (Ns n); right; exact I).
    specialize (IH u Ns' E). cbn [filter]. destruct (own a) eqn:O.
    + pose proof (own_left a s u O S). cbn [length]. lia.
    + assert (left u = left s).
      { apply rest_left with a; [exact O| |exact S]. intros n ->. apply (Ns n). left; reflexivity. }
      lia.
Qed.

(** ** It is never stuck *)

Definition within (l : list client) (ord : list nat) : Prop := Forall (fun i => i < length l) ord.

Definition placed (s : state) : Prop :=
  let l := clients s in
  match srv s with
  | Idle => True
  | Count i _ => i <= length l
  | CountA i _ _ => i < length l
  | Pass ord todo _ _ => within l ord /\ within l todo
  | Seen ord i _ todo _ _ => within l ord /\ i < length l /\ within l todo
  | Try ord i todo _ _ => within l ord /\ i < length l /\ within l todo
  end.

Lemma count_occ_seq a n i : count_occ Nat.eq_dec (seq a n) i = if (a <=? i) && (i <? a + n) then 1 else 0.
Proof.
  revert a. induction n as [|n IH]; intros a; cbn [seq count_occ].
  - destruct (a <=? i) eqn:A, (i <? a + 0) eqn:B; try reflexivity.
    apply Nat.leb_le in A. apply Nat.ltb_lt in B. lia.
  - rewrite IH. destruct (Nat.eq_dec a i) as [->|N].
    + rewrite Nat.leb_refl. replace (i <? i + S n) with true by (symmetry; apply Nat.ltb_lt; lia).
      replace (S i <=? i) with false by (symmetry; apply Nat.leb_gt; lia). reflexivity.
    + replace (a + S n) with (S a + n) by lia.
      destruct (a <=? i) eqn:A.
      * apply Nat.leb_le in A. replace (S a <=? i) with true by (symmetry; apply Nat.leb_le; lia). reflexivity.
      * apply Nat.leb_gt in A. replace (S a <=? i) with false by (symmetry; apply Nat.leb_gt; lia). reflexivity.
Qed.

Lemma seq_is_order n : is_order (seq 0 n) n = true.
Proof.
  unfold is_order. rewrite seq_length, Nat.eqb_refl. cbn.
  apply forallb_forall. intros i I. apply in_seq in I. rewrite count_occ_seq.
  replace (0 <=? i) with true by (symmetry; apply Nat.leb_le; lia).
  replace (i <? 0 + n) with true by (symmetry; apply Nat.ltb_lt; lia). reflexivity.
Qed.

Lemma is_order_spec ord n :
  is_order ord n = true -> length ord = n /\ NoDup ord /\ forall i, In i ord <-> i < n.
Proof.
  intros E. unfold is_order in E. apply andb_true_iff in E. destruct E as [L C].
  apply Nat.eqb_eq in L. rewrite forallb_forall in C.
  assert (Inc : incl (seq 0 n) ord).
  { intros i I. specialize (C i I). apply Nat.eqb_eq in C.
    apply (count_occ_In Nat.eq_dec). lia. }
  assert (Nd : NoDup ord).
  { apply NoDup_incl_NoDup with (seq 0 n); [apply seq_NoDup| |exact Inc].
    rewrite seq_length. lia. }
  assert (Inc2 : incl ord (seq 0 n)).
  { apply NoDup_length_incl; [apply seq_NoDup|rewrite seq_length; lia|exact Inc]. }
  split; [exact L|]. split; [exact Nd|]. intros i. split; intros I.
  - apply Inc2 in I. apply in_seq in I. lia.
  - apply Inc, in_seq. lia.
Qed.

Lemma step_placed a s t : placed s -> step a s = Next t -> placed t.
Proof.
  intros P E. destruct s as [l p]. destruct a; cbn [step clients srv] in E.
  - destruct p; try discriminate E. destruct (n =? 0); inversion E; subst; cbn; auto. lia.
  - destruct (go l p) as [q|] eqn:G; inversion E; subst.
    destruct p as [|i acc|i r acc|o td acc any|o i r td acc any|o i td acc any];
      cbn [go] in G; try discriminate G.
    + destruct (nth_error l i) as [c|] eqn:C; inversion G; subst. cbn.
      apply nth_error_Some; rewrite C; discriminate.
    + destruct (nth_error l i) as [c|] eqn:C; [|discriminate G].
      destruct (acc <=? _); inversion G; subst; cbn; auto.
    + cbn in P. destruct P as [P1 P2]. destruct td as [|i td].
      * destruct any; inversion G; subst; cbn; auto.
      * destruct (nth_error l i) as [c|] eqn:C; inversion G; subst. cbn.
        inversion P2; subst. auto.
    + cbn in P. destruct (nth_error l i) as [c|] eqn:C; [|discriminate G].
      destruct (avail c <=? r); inversion G; subst; cbn; tauto.
  - destruct p as [|i acc| | | |]; try discriminate E.
    destruct ((i =? length l) && is_order ord (length l)) eqn:Q; inversion E; subst.
    apply andb_true_iff in Q. destruct Q as [_ Q]. apply is_order_spec in Q.
    destruct Q as [_ [_ Q]]. cbn. assert (W : within l ord) by (apply Forall_forall; intros j J; apply Q, J).
    auto.
  - destruct p as [| | | | |o i todo acc any]; try discriminate E.
    cbn in P. destruct (nth_error l i) as [c|]; try discriminate E.
    destruct ok; inversion E; subst; cbn; [|tauto].
    destruct (acc - 1 =? 0); cbn; auto. unfold within. rewrite upd_length. tauto.
  - destruct p; try discriminate E. destruct (nth_error l i); try discriminate E.
    destruct (held c =? 0); try discriminate E. destruct (act c =? 0); inversion E; exact I.
  - destruct p; inversion E; exact I.
  - destruct p; try discriminate E. destruct (nth_error l i); try discriminate E.
    destruct (mid c); inversion E; exact I.
  - destruct (nth_error l i); try discriminate E. destruct (mid c); inversion E; subst.
    unfold placed, within in *; cbn [srv clients] in *. rewrite upd_length. exact P.
  - destruct (nth_error l i); try discriminate E. destruct (mid c || _); try discriminate E.
    destruct (req c =? 0); inversion E; subst.
    unfold placed, within in *; cbn [srv clients] in *. rewrite upd_length. exact P.
  - destruct (nth_error l i); try discriminate E. destruct (mid c || _); try discriminate E.
    destruct (req c =? 0); inversion E; subst.
    unfold placed, within in *; cbn [srv clients] in *. rewrite upd_length. exact P.
  - destruct (nth_error l i); try discriminate E. destruct (mid c); inversion E; subst.
    unfold placed, within in *; cbn [srv clients] in *. rewrite upd_length. exact P.
Qed.

Lemma run_placed h s t : placed s -> run h s = Next t -> placed t.
Proof.
  revert s. induction h as [|a h IH]; intros s P E; cbn [run] in E.
  - inversion E; subst. exact P.
  - destruct (step a s) as [| |u] eqn:S; try discriminate E.
    apply IH with u; [|exact E]. apply step_placed with a s; assumption.
Qed.

Lemma nth_within l i : i < length l -> exists c : client, nth_error l i = Some c.
Proof.
  intros L. destruct (nth_error l i) as [c|] eqn:C; [eauto|].
  apply nth_error_None in C. lia.
Qed.

Lemma placed_goes s : placed s -> srv s <> Idle ->
  exists a t, own a = true /\ step a s = Next t.
Proof.
  intros P N. destruct s as [l p]. cbn [srv] in N.
  destruct p as [|i acc|i r acc|o td acc any|o i r td acc any|o i td acc any]; cbn in P.
  - congruence.
  - destruct (Nat.eq_dec i (length l)) as [->|D].
    + exists (Sort (seq 0 (length l))). eexists. split; [reflexivity|].
      cbn [step srv clients]. rewrite Nat.eqb_refl, seq_is_order. reflexivity.
    + destruct (nth_within l i) as [c C]; [lia|]. exists Go. eexists. split; [reflexivity|].
      cbn [step srv clients go]. rewrite C. reflexivity.
  - destruct (nth_within l i) as [c C]; [lia|]. exists Go.
    cbn [step srv clients go]. rewrite C. destruct (acc <=? _); eexists; split; reflexivity.
  - exists Go. destruct td as [|i td].
    + cbn [step srv clients go]. destruct any; eexists; split; reflexivity.
    + destruct P as [_ P]. inversion P; subst. destruct (nth_within l i) as [c C]; [assumption|].
      cbn [step srv clients go]. rewrite C. eexists; split; reflexivity.
  - destruct P as [_ [P _]]. destruct (nth_within l i) as [c C]; [lia|]. exists Go.
    cbn [step srv clients go]. rewrite C. destruct (avail c <=? r); eexists; split; reflexivity.
  - destruct P as [_ [P _]]. destruct (nth_within l i) as [c C]; [lia|]. exists (Lock true).
    cbn [step srv clients]. rewrite C. eexists; split; reflexivity.
Qed.

(** ** An undisturbed round *)

Definition load1 (c : client) : nat := req c + act c.

Definition full (c : client) : Prop := avail c <= req c.

(** [c'] is [c] after some requests. *)
Definition asked (c c' : client) : Prop :=
  act c' = act c /\ avail c' = avail c /\ mid c' = mid c /\ held c' = held c /\
  req c <= req c' /\ owed c' + req c = owed c + req c' /\
  (req c < req c' -> req c' <= avail c').

(** [c'] has had its [q] turns. *)
Definition turns (q : nat) (c c' : client) : Prop :=
  req c' = req c + q \/ (req c' <= req c + q /\ full c').

Definition at_pos (l0 l : list client) (i : nat) (P : client -> client -> Prop) : Prop :=
  forall c c', nth_error l0 i = Some c -> nth_error l i = Some c' -> P c c'.

Definition fair (l0 l : list client) (p : nat) (done todo : list nat) : Prop :=
  (forall i, In i done -> at_pos l0 l i (turns (S p))) /\
  (forall i, In i todo -> at_pos l0 l i (turns p)).

Definition order_of (l0 : list client) (ord : list nat) : Prop :=
  NoDup ord /\ (forall i, In i ord <-> i < length l0) /\ neediest_first l0 ord.

Definition goodround (n : nat) (l0 : list client) (s : state) : Prop :=
  let l := clients s in
  Forall2 asked l0 l /\
  match srv s with
  | Idle =>
      (n + 1 <= total load1 l \/ Forall full l) /\
      ((exists ord p done todo,
          order_of l0 ord /\ ord = done ++ todo /\ fair l0 l p done todo) \/ l = l0)
  | Count i acc => 0 < acc /\ l = l0 /\ i <= length l /\ total load1 (firstn i l) + acc = n + 1
  | CountA i r acc =>
      l = l0 /\ total load1 (firstn i l) + acc = n + 1 /\
      (forall c, nth_error l i = Some c -> r = req c)
  | Pass ord todo acc any =>
      0 < acc /\ total load1 l + acc = n + 1 /\ order_of l0 ord /\
      exists p done, ord = done ++ todo /\ fair l0 l p done todo /\
        (any = false -> forall i c, In i done -> nth_error l i = Some c -> full c)
  | Seen ord i r todo acc any =>
      0 < acc /\ total load1 l + acc = n + 1 /\ order_of l0 ord /\
      (forall c, nth_error l i = Some c -> r = req c) /\
      exists p done, ord = done ++ i :: todo /\ fair l0 l p done (i :: todo) /\
        (any = false -> forall i c, In i done -> nth_error l i = Some c -> full c)
  | Try ord i todo acc any =>
      0 < acc /\ total load1 l + acc = n + 1 /\ order_of l0 ord /\
      (forall c, nth_error l i = Some c -> req c < avail c) /\
      exists p done, ord = done ++ i :: todo /\ fair l0 l p done (i :: todo) /\
        (any = false -> forall i c, In i done -> nth_error l i = Some c -> full c)
  end.

Lemma asked_refl l : Forall2 asked l l.
Proof.
  induction l as [|c l IH]; constructor; [|exact IH].
  unfold asked. repeat split; lia.
Qed.

Lemma asked_pos l0 l i c' :
  Forall2 asked l0 l -> nth_error l i = Some c' ->
  exists c, nth_error l0 i = Some c /\ asked c c'.
Proof.
  intros F. revert i. induction F as [|x y l0 l A F IH]; intros [|i] E; cbn in *; try discriminate.
  - inversion E; subst. eauto.
  - apply IH, E.
Qed.

Lemma asked_length l0 l : Forall2 asked l0 l -> length l0 = length l.
Proof. induction 1; cbn; auto. Qed.

Lemma asked_upd l0 l i c c' :
  Forall2 asked l0 l -> nth_error l0 i = Some c -> asked c c' -> Forall2 asked l0 (upd i c' l).
Proof.
  intros F. revert i. induction F as [|x y l0 l A F IH]; intros [|i] E B; cbn in *; try discriminate.
  - inversion E; subst. constructor; assumption.
  - constructor; [assumption|]. apply IH; assumption.
Qed.

Lemma turns_next q c c' : turns q c c' -> full c' -> turns (S q) c c'.
Proof. intros [E|[E F]] G; right; split; try assumption; lia. Qed.

Lemma go_round n l0 l p q :
  goodround n l0 (mkS l p) -> go l p = Some q -> goodround n l0 (mkS l q).
Proof.
  intros [A G] E. split; [exact A|].
  destruct p as [|i acc|i r acc|o td acc any|o i r td acc any|o i td acc any];
    cbn [go srv clients] in *; try discriminate E.
  - destruct (nth_error l i) as [c|] eqn:C; inversion E; subst.
    destruct G as [G0 [G1 [G2 G3]]]. split; [exact G1|]. split; [exact G3|].
    intros d D. congruence.
  - destruct (nth_error l i) as [c|] eqn:C; [|discriminate E].
    destruct G as [G1 [G2 G3]]. specialize (G3 c eq_refl).
    pose proof (firstn_next load1 i l c C) as Nx.
    assert (Li : i < length l) by (apply nth_error_Some; rewrite C; discriminate).
    assert (Ld : load1 c = r + act c) by (unfold load1; lia).
    destruct (acc <=? r + act c) eqn:Q; inversion E; subst q.
    + apply Nat.leb_le in Q. split; [|right; exact G1]. left.
      assert (T : total load1 (firstn (S i) l) <= total load1 l).
      { pose proof (total_app load1 (firstn (S i) l) (skipn (S i) l)) as X.
        rewrite firstn_skipn in X. lia. }
      lia.
    + apply Nat.leb_gt in Q. split; [lia|]. split; [exact G1|]. split; lia.
  - destruct G as [G1 [G2 [G3 [pp [done [G4 [G5 G6]]]]]]].
    destruct td as [|i td].
    + rewrite app_nil_r in G4. subst done. destruct any; inversion E; subst q.
      * split; [exact G1|]. split; [exact G2|]. split; [exact G3|].
        exists (S pp), []. split; [reflexivity|]. split.
        -- split; [intros i []|]. intros i I. apply (proj1 G5), I.
        -- intros _ i c [].
      * split; [right|left].
        -- apply Forall_forall. intros c I. apply In_nth_error in I. destruct I as [i C].
           apply (G6 eq_refl i c); [|exact C]. apply G3. rewrite (asked_length _ _ A).
           apply nth_error_Some. rewrite C. discriminate.
        -- exists o, pp, o, []. split; [exact G3|]. split; [symmetry; apply app_nil_r|exact G5].
    + destruct (nth_error l i) as [c|] eqn:C; inversion E; subst q.
      split; [exact G1|]. split; [exact G2|]. split; [exact G3|].
      split; [intros d D; congruence|]. exists pp, done. auto.
  - destruct G as [G1 [G2 [G3 [G4 [pp [done [G5 [G6 G7]]]]]]]].
    destruct (nth_error l i) as [c|] eqn:C; [|discriminate E].
    specialize (G4 c eq_refl).
    destruct (avail c <=? r) eqn:Q; inversion E; subst q.
    + apply Nat.leb_le in Q. assert (Fc : full c) by (unfold full; lia).
      split; [exact G1|]. split; [exact G2|]. split; [exact G3|].
      exists pp, (done ++ [i]). split; [rewrite <- app_assoc; exact G5|]. split; [split|].
      * intros j J. apply in_app_or in J. destruct J as [J|[<-|[]]]; [apply (proj1 G6), J|].
        intros d d' D D'. rewrite C in D'. inversion D'; subst d'.
        apply turns_next; [|exact Fc]. apply (proj2 G6 i (or_introl eq_refl) d c D C).
      * intros j J. apply (proj2 G6). right; exact J.
      * intros Z j d J D. apply in_app_or in J. destruct J as [J|[<-|[]]].
        -- apply (G7 Z j d J D).
        -- rewrite C in D. inversion D; subst. exact Fc.
    + apply Nat.leb_gt in Q. split; [exact G1|]. split; [exact G2|]. split; [exact G3|].
      split; [|exists pp, done; auto]. intros d D. rewrite C in D. inversion D; subst. lia.
Qed.

Lemma step_round n l0 a s t :
  own a = true -> a <> Lock false ->
  (forall ord, a = Sort ord -> neediest_first l0 ord) ->
  goodround n l0 s -> step a s = Next t -> goodround n l0 t.
Proof.
  intros O Nf Sd G E. destruct s as [l p].
  destruct a; try discriminate O; cbn [step clients srv] in E.
  - destruct (go l p) as [q|] eqn:Q; inversion E; subst. apply go_round with p; assumption.
  - destruct p as [|i acc| | | |]; try discriminate E.
    destruct ((i =? length l) && is_order ord (length l)) eqn:Q; inversion E; subst.
    apply andb_true_iff in Q. destruct Q as [Q1 Q2]. apply Nat.eqb_eq in Q1. subst i.
    apply is_order_spec in Q2. destruct Q2 as [_ [Q2 Q3]].
    destruct G as [A [G0 [G1 [G2 G3]]]]. cbn [srv clients] in *. subst l0.
    rewrite firstn_all in G3. split; [exact A|]. cbn [srv clients].
    split; [exact G0|]. split; [exact G3|].
    split; [split; [exact Q2|split; [exact Q3|apply Sd; reflexivity]]|].
    exists 0, []. split; [reflexivity|]. split; [|intros _ i c []].
    split; [intros i []|]. intros i _ c c' C C'. rewrite C in C'. inversion C'; subst.
    left. lia.
  - destruct p as [| | | | |o i todo acc any]; try discriminate E.
    destruct ok; [|congruence].
    destruct (nth_error l i) as [c|] eqn:C; try discriminate E. inversion E; subst t. clear E.
    destruct G as [A [G1 [G2 [G3 [G4 [pp [done [G5 [G6 G7]]]]]]]]]. cbn [srv clients] in *.
    specialize (G4 c C).
    destruct (asked_pos _ _ _ _ A C) as [c0 [C0 A0]].
    assert (A' : Forall2 asked l0 (upd i (ask c) l)).
    { apply asked_upd with c0; [exact A|exact C0|]. unfold asked, ask in *. cbn [act avail mid held req owed]. intuition lia. }
    assert (T : total load1 (upd i (ask c) l) = S (total load1 l)).
    { pose proof (upd_total load1 i (ask c) l c C) as U. unfold load1 at 2 4 in U. cbn in U. lia. }
    assert (Ord : o = (done ++ [i]) ++ todo) by (rewrite <- app_assoc; exact G5).
    assert (Ni : ~ In i done /\ ~ In i todo).
    { destruct G3 as [Nd _]. rewrite G5 in Nd. apply NoDup_remove in Nd. destruct Nd as [_ Nd].
      split; intros I; apply Nd, in_or_app; auto. }
    assert (F : fair l0 (upd i (ask c) l) pp (done ++ [i]) todo).
    { split.
      - intros j J. apply in_app_or in J. destruct J as [J|[<-|[]]].
        + intros d d' D D'. rewrite upd_other in D' by (intros ->; tauto).
          apply (proj1 G6 j J d d' D D').
        + intros d d' D D'. rewrite (upd_same i (ask c) l c C) in D'. inversion D'; subst d'.
          destruct (proj2 G6 i (or_introl eq_refl) d c D C) as [X|[_ X]].
          * left. cbn. lia.
          * unfold full in X. lia.
      - intros j J d d' D D'. rewrite upd_other in D' by (intros ->; tauto).
        apply (proj2 G6 j (or_intror J) d d' D D'). }
    split; [exact A'|]. cbn [srv clients].
    destruct (acc - 1 =? 0) eqn:Z.
    + apply Nat.eqb_eq in Z. split; [left; lia|]. left. exists o, pp, (done ++ [i]), todo. auto.
    + apply Nat.eqb_neq in Z. split; [lia|]. split; [lia|]. split; [exact G3|].
      exists pp, (done ++ [i]). split; [exact Ord|]. split; [exact F|]. discriminate.
Qed.

Lemma run_round n l0 h s t :
  Forall (fun a => own a = true /\ a <> Lock false) h ->
  (forall ord, In (Sort ord) h -> neediest_first l0 ord) ->
  goodround n l0 s -> run h s = Next t -> goodround n l0 t.
Proof.
  revert s. induction h as [|a h IH]; intros s Q Sd G E; cbn [run] in E.
  - inversion E; subst. exact G.
  - inversion Q as [|x y [Q1 Q2] Q3]; subst.
    destruct (step a s) as [| |u] eqn:S; try discriminate E.
    apply IH with u; [exact Q3| | |exact E].
    + intros ord I. apply Sd. right; exact I.
    + apply step_round with a s; auto. intros ord ->. apply Sd. left; reflexivity.
Qed.

(** What fairness comes to. *)
Lemma fair_gives l0 l p done todo i j ci cj ci' cj' :
  order_of l0 (done ++ todo) -> fair l0 l p done todo -> Forall2 asked l0 l ->
  nth_error l0 i = Some ci -> nth_error l0 j = Some cj ->
  nth_error l i = Some ci' -> nth_error l j = Some cj' ->
  req ci' < avail ci' ->
  req cj' - req cj <= S (req ci' - req ci) /\
  (req ci' - req ci < req cj' - req cj -> avail ci <= avail cj).
Proof.
  intros [Nd [Or Nf]] [F1 F2] A Ci Cj Ci' Cj' R.
  assert (Ii : In i (done ++ todo)) by (apply Or, nth_error_Some; rewrite Ci; discriminate).
  assert (Ij : In j (done ++ todo)) by (apply Or, nth_error_Some; rewrite Cj; discriminate).
  assert (Nfi : ~ full ci') by (unfold full; lia).
  apply in_app_or in Ii. apply in_app_or in Ij.
  destruct Ii as [Ii|Ii]; destruct Ij as [Ij|Ij].
  - destruct (F1 i Ii ci ci' Ci Ci') as [X|[_ X]]; [|contradiction].
    destruct (F1 j Ij cj cj' Cj Cj') as [Y|[Y _]]; lia.
  - destruct (F1 i Ii ci ci' Ci Ci') as [X|[_ X]]; [|contradiction].
    destruct (F2 j Ij cj cj' Cj Cj') as [Y|[Y _]]; lia.
  - destruct (F2 i Ii ci ci' Ci Ci') as [X|[_ X]]; [|contradiction].
    split.
    + destruct (F1 j Ij cj cj' Cj Cj') as [Y|[Y _]]; lia.
    + intros _. apply in_split in Ij. destruct Ij as [x [y ->]].
      apply in_split in Ii. destruct Ii as [u [v ->]].
      apply (Nf x j (y ++ u) i v cj ci); [|exact Cj|exact Ci].
      rewrite <- !app_assoc. reflexivity.
  - destruct (F2 i Ii ci ci' Ci Ci') as [X|[_ X]]; [|contradiction].
    destruct (F2 j Ij cj cj' Cj Cj') as [Y|[Y _]]; lia.
Qed.
