(** Invariant of the life of distributable jobs. *)
From Coq Require Import List Arith Bool NArith Lia Permutation.
From Verif Require Import M_Dist S_Dist.
Import ListNotations.

Lemma cnt_app x a b : cnt x (a ++ b) = cnt x a + cnt x b. Proof. apply count_occ_app. Qed.
Lemma cnt_cons_eq x l : cnt x (x :: l) = S (cnt x l). Proof. unfold cnt. now rewrite count_occ_cons_eq. Qed.
Lemma cnt_cons_neq x y l : x <> y -> cnt x (y :: l) = cnt x l. Proof. intros. unfold cnt. rewrite count_occ_cons_neq; auto. Qed.

Lemma pull_spec {A} (p : A -> bool) l x r : pull p l = Some (x, r) -> p x = true /\ exists a b, l = a ++ x :: b /\ r = a ++ b.
Proof.
  revert x r. induction l as [|y l IH]; cbn; intros x r H; [discriminate|]. destruct (p y) eqn:E.
  - injection H as <- <-. split; [exact E|]. now exists [], l.
  - destruct (pull p l) as [[z r']|]; [|discriminate]. injection H as <- <-. destruct (IH _ _ eq_refl) as (F & a & b & -> & ->).
    split; [exact F|]. now exists (y :: a), b.
Qed.
Lemma pull_some {A} (p : A -> bool) l x : In x l -> p x = true -> pull p l <> None.
Proof. induction l as [|y l IH]; intros I P; [destruct I|]. cbn. destruct (p y) eqn:E; [discriminate|]. destruct I as [<-|I]; [congruence|]. destruct (pull p l) as [[? ?]|]; [discriminate|]. now destruct (IH I P). Qed.
Lemma mem_in j l : mem j l = true <-> In j l.
Proof. unfold mem. rewrite existsb_exists. split; [intros (x & I & E); apply Nat.eqb_eq in E; now subst|intros I; exists j; split; [exact I|apply Nat.eqb_refl]]. Qed.
Lemma mem_cnt j l : mem j l = true <-> cnt j l > 0.
Proof. rewrite mem_in. apply count_occ_In. Qed.
Lemma mem_cnt_false j l : mem j l = false <-> cnt j l = 0.
Proof. rewrite <- not_true_iff_false, mem_cnt. lia. Qed.
Lemma cnt_erase_same j l : cnt j (erase j l) = cnt j l - 1.
Proof.
  unfold erase. destruct (pull (Nat.eqb j) l) as [[x r]|] eqn:E.
  - destruct (pull_spec _ _ _ _ E) as (P & a & b & -> & ->). apply Nat.eqb_eq in P. subst x. rewrite !cnt_app, cnt_cons_eq. lia.
  - assert (X : cnt j l = 0); [|lia]. unfold cnt. apply count_occ_not_In. intros I. now apply (pull_some (Nat.eqb j) l j I (Nat.eqb_refl j)).
Qed.
Lemma cnt_erase_other i j l : i <> j -> cnt i (erase j l) = cnt i l.
Proof.
  intros N. unfold erase. destruct (pull (Nat.eqb j) l) as [[x r]|] eqn:E; [|reflexivity].
  destruct (pull_spec _ _ _ _ E) as (P & a & b & -> & ->). apply Nat.eqb_eq in P. subst x. rewrite !cnt_app, cnt_cons_neq; auto.
Qed.

Lemma runs_app j a b : runs j (a ++ b) = runs j a ++ runs j b. Proof. unfold runs. now rewrite filter_app, map_app. Qed.
Lemma ends_app j a b : ends j (a ++ b) = ends j a ++ ends j b. Proof. unfold ends. now rewrite filter_app, map_app. Qed.
Lemma holds_app j a b : holds j (a ++ b) = holds j a ++ holds j b. Proof. unfold holds. now rewrite filter_app, map_app. Qed.
Lemma runs_cons j k l : runs j ((j, k) :: l) = k :: runs j l. Proof. unfold runs, is_run. cbn [filter fst]. now rewrite Nat.eqb_refl. Qed.
Lemma ends_cons j r l : ends j ((j, r) :: l) = r :: ends j l. Proof. unfold ends. cbn [filter fst]. now rewrite Nat.eqb_refl. Qed.
Lemma holds_cons w j h l : holds j ((w, j, h) :: l) = (w, h) :: holds j l. Proof. unfold holds. cbn [filter fst snd]. now rewrite Nat.eqb_refl. Qed.
Lemma runs_other i j k l : i <> j -> runs i ((j, k) :: l) = runs i l.
Proof. intros N. unfold runs, is_run. cbn [filter fst]. destruct (Nat.eqb_spec j i); [congruence|reflexivity]. Qed.
Lemma ends_other i j k l : i <> j -> ends i ((j, k) :: l) = ends i l.
Proof. intros N. unfold ends. cbn [filter fst]. destruct (Nat.eqb_spec j i); [congruence|reflexivity]. Qed.
Lemma holds_other i w j k l : i <> j -> holds i ((w, j, k) :: l) = holds i l.
Proof. intros N. unfold holds. cbn [filter fst snd]. destruct (Nat.eqb_spec j i); [congruence|reflexivity]. Qed.

Lemma put_same j b h : put j b h j = b. Proof. unfold put. now rewrite Nat.eqb_refl. Qed.
Lemma put_other i j b h : i <> j -> put j b h i = h i. Proof. intros N. unfold put. destruct (Nat.eqb_spec i j); [congruence|reflexivity]. Qed.

Definition count_of (e : entry) (j : nat) : nat * nat * nat * nat :=
  match e with
  | LFinal i _ => if i =? j then (1, 0, 0, 0) else (0, 0, 0, 0)
  | LFreed i => if i =? j then (0, 1, 0, 0) else (0, 0, 0, 0)
  | LSys _ i => if i =? j then (0, 0, 1, 0) else (0, 0, 0, 0)
  | LRetry i => if i =? j then (0, 0, 0, 1) else (0, 0, 0, 0)
  | LAttempt _ _ => (0, 0, 0, 0)
  end.
Lemma finals_cons j e l : finals j (e :: l) = fst (fst (fst (count_of e j))) + finals j l.
Proof. unfold finals. cbn [filter]. destruct e; cbn [count_of]; try (destruct (_ =? _)); reflexivity. Qed.
Lemma frees_cons j e l : frees j (e :: l) = snd (fst (fst (count_of e j))) + frees j l.
Proof. unfold frees. cbn [filter]. destruct e; cbn [count_of]; try (destruct (_ =? _)); reflexivity. Qed.
Lemma errors_cons j e l : errors j (e :: l) = snd (fst (count_of e j)) + errors j l.
Proof. unfold errors. cbn [filter]. destruct e; cbn [count_of]; try (destruct (_ =? _)); reflexivity. Qed.
Lemma retries_cons j e l : retries j (e :: l) = snd (count_of e j) + retries j l.
Proof. unfold retries. cbn [filter]. destruct e; cbn [count_of]; try (destruct (_ =? _)); reflexivity. Qed.

Record view := V { vh : option job; vq : nat; va : nat; vi : nat; vl : list lkind; vd : list result; vo : list (nat * hstage);
  vfin : nat; vfree : nat; vse : nat; vrt : nat }.
Definition view_of (s : state) (j : nat) : view :=
  V (heap s j) (cnt j (queue s)) (cnt j (avail s)) (cnt j (inprog s)) (runs j (local s)) (ends j (done s ++ done2 s)) (holds j (hold s))
    (finals j (log s)) (frees j (log s)) (errors j (log s)) (retries j (log s)).

Definition holder (h : hstage) : Prop := match h with Taking | InFlight | Got _ _ => True | _ => False end.
Definition J (d : dstate) (se : nat) : option job := Some {| ds := d; errs := N.of_nat se |}.

(** The situations a job can be in.  The flag tells whether the last three, where the job is never deleted, are excluded. *)
Inductive good (c : bool) : view -> Prop :=
  | g_none : good c (V None 0 0 0 [] [] [] 0 0 0 0)
  | g_queue : good c (V (J DNone 0) 1 0 0 [] [] [] 0 0 0 0)
  | g_first : good c (V (J DNone 0) 0 0 0 [First] [] [] 0 0 0 0)
  | g_first_done r : good c (V (J DNone 0) 0 0 0 [] [r] [] 0 0 0 0)
  | g_avail se rt : rt <= se -> se <= 2 -> good c (V (J DAvailable se) 0 1 0 [] [] [] 0 0 se rt)
  | g_local k se rt : k <> First -> rt <= 2 -> se <= 3 -> good c (V (J DBuildingLocally se) 0 0 1 [k] [] [] 0 0 se rt)
  | g_remote w h se rt : holder h -> rt <= se -> se <= 2 -> good c (V (J DBuildingRemotely se) 0 0 1 [] [] [(w, h)] 0 0 se rt)
  | g_owned w ok sys se rt : rt <= 2 -> se <= 3 -> (sys = true -> rt < se) ->
      good c (V (J DCompletedRemotely se) 0 0 1 [] [] [(w, Owned ok sys (N.of_nat se))] 0 0 se rt)
  | g_race w h se rt : holder h -> rt <= se -> se <= 2 -> good c (V (J DRacing se) 0 0 1 [Race] [] [(w, h)] 0 0 se rt)
  | g_raced w h r se rt : holder h -> rt <= se -> se <= 2 -> good c (V (J DRacing se) 0 0 1 [] [r] [(w, h)] 0 0 se rt)
  | g_cancel w ok se rt : rt <= se -> se <= 2 ->
      good c (V (J DRaceWonRemotelyCancelLocal se) 0 0 1 [Race] [] [(w, Waiting ok (N.of_nat se))] 0 0 se rt)
  | g_cancel_done w ok r se rt : rt <= se -> se <= 2 -> (c = true -> r = ROk) ->
      good c (V (J DRaceWonRemotelyCancelLocal se) 0 0 1 [] [r] [(w, Waiting ok (N.of_nat se))] 0 0 se rt)
  | g_won w ok se rt : rt <= se -> se <= 2 -> good c (V (J DRaceWonRemotely se) 0 0 1 [] [] [(w, Waiting ok (N.of_nat se))] 0 0 se rt)
  | g_won_owned w ok se rt : rt <= se -> se <= 2 -> good c (V (J DRaceWonRemotely se) 0 0 1 [] [] [(w, Owned ok false (N.of_nat se))] 0 0 se rt)
  | g_lost w h se rt : holder h -> rt <= se -> se <= 2 -> good c (V (J DRaceWonLocally se) 0 0 1 [] [] [(w, h)] 1 0 se rt)
  | g_done d r se rt : (d = DCompletedLocally \/ d = DCompletedRemotely \/ d = DRaceWonRemotely) -> rt <= 2 -> se <= 3 ->
      good c (V (J d se) 0 0 0 [] [r] [] 0 0 se rt)
  | g_done_wait w ok n r se rt : rt <= 2 -> se <= 3 -> good c (V (J DCompletedLocally se) 0 0 0 [] [r] [(w, Waiting ok n)] 0 0 se rt)
  | g_freed se rt : rt <= 2 -> se <= 3 -> good c (V None 0 0 0 [] [] [] 1 1 se rt)
  | g_freed_wait w ok n se rt : rt <= 2 -> se <= 3 -> good c (V None 0 0 0 [] [] [(w, Waiting ok n)] 1 1 se rt)
  | g_leak1 r se rt : c = false -> rt <= 2 -> se <= 3 -> good c (V (J DBuildingLocally se) 0 0 1 [] [r] [] 0 0 se rt)
  | g_leak2 se rt : c = false -> rt <= 2 -> se <= 3 -> good c (V (J DRaceWonLocally se) 0 0 1 [] [] [] 1 0 se rt)
  | g_leak3 w ok n se rt : c = false -> rt <= 2 -> se <= 3 -> good c (V (J DRaceWonLocally se) 0 0 1 [] [] [(w, Waiting ok n)] 1 0 se rt).
Arguments good : clear implicits.

Lemma good_weaken v : good true v -> good false v.
Proof. intros G. inversion G; subst; constructor; auto; try discriminate. Qed.

Lemma unit_mid {A} (a b : list A) x y : [y] = a ++ x :: b -> y = x /\ a = [] /\ b = [].
Proof. intros H. symmetry in H. apply app_eq_unit in H. destruct H as [[-> H]|[-> H]]; [injection H as -> ->; auto|discriminate]. Qed.
Lemma nil_mid {A} (a b : list A) x : [] = a ++ x :: b -> False.
Proof. intros H. symmetry in H. now apply app_eq_nil in H as [_ H]. Qed.

Lemma ends_in j r l : In r (ends j l) <-> In (j, r) l.
Proof.
  unfold ends. rewrite in_map_iff. split.
  - intros ([i r'] & <- & I). apply filter_In in I. destruct I as [I E]. apply Nat.eqb_eq in E. cbn in *. now subst.
  - intros I. exists (j, r). split; [reflexivity|]. apply filter_In. split; [exact I|apply Nat.eqb_refl].
Qed.

Definition nothing : view := V None 0 0 0 [] [] [] 0 0 0 0.
Definition inv (c : bool) (s : state) : Prop :=
  (forall j, good c (view_of s j)) /\ (forall j, next s <= j -> view_of s j = nothing) /\ (forall j, j < next s -> view_of s j <> nothing) /\ (c = true -> asserts s = true).

Lemma inv_weaken c c' s : inv c s -> (c' = true -> c = true) -> inv c' s.
Proof.
  intros (A & B & C & D) H. split; [|auto]. intros j. destruct c, c'; auto; [now apply good_weaken|discriminate (H eq_refl)].
Qed.
Lemma inv_frame c s s' j : inv c s -> next s' = next s -> j < next s -> (forall i, i <> j -> view_of s' i = view_of s i) ->
  good c (view_of s' j) -> view_of s' j <> nothing -> (c = true -> asserts s' = true) -> inv c s'.
Proof.
  intros (A & B & C & D) N L E G X F. split; [|split; [|split; [|exact F]]]; intros i.
  - destruct (Nat.eq_dec i j) as [->|NE]; [exact G|]. rewrite E by exact NE. apply A.
  - rewrite N. intros H. rewrite E by lia. now apply B.
  - rewrite N. intros H. destruct (Nat.eq_dec i j) as [->|NE]; [exact X|]. rewrite E by exact NE. now apply C.
Qed.
Lemma known c s j : inv c s -> view_of s j <> nothing -> j < next s.
Proof. intros (A & B & C & D) H. destruct (le_lt_dec (next s) j) as [L|L]; [|exact L]. now rewrite B in H. Qed.

Ltac fields := cbn [next heap queue avail inprog local hold done done2 up closing deny asserts log
  set_heap set_queue set_avail set_inprog set_local set_hold set_done set_done2 set_net set_next assert note complete] in *.
Ltac lists := repeat match goal with
  | H : local ?s = _ ++ _ :: _ |- context [local ?s] => rewrite H
  | H : hold ?s = _ ++ _ :: _ |- context [hold ?s] => rewrite H
  | H : done2 ?s = _ :: _ |- context [done2 ?s] => rewrite H
  end.
Ltac other NE := unfold view_of; fields; lists; f_equal;
  repeat first [rewrite (put_other _ _ _ _ NE) | rewrite (cnt_erase_other _ _ _ NE) | rewrite cnt_app | rewrite (cnt_cons_neq _ _ _ NE)
    | rewrite runs_app | rewrite (runs_other _ _ _ _ NE) | rewrite ends_app | rewrite (ends_other _ _ _ _ NE)
    | rewrite holds_app | rewrite (holds_other _ _ _ _ _ NE) | rewrite finals_cons | rewrite frees_cons | rewrite errors_cons | rewrite retries_cons];
  cbn [count_of]; repeat match goal with |- context [?x =? ?y] => destruct (Nat.eqb_spec x y); [congruence|] end; cbn [fst snd]; cbn; rewrite ?app_nil_r; auto; try lia; try reflexivity.
Ltac same := unfold view_of; fields;
  repeat first [rewrite put_same | rewrite cnt_erase_same | rewrite cnt_app | rewrite cnt_cons_eq | rewrite runs_app | rewrite runs_cons
    | rewrite ends_app | rewrite ends_cons | rewrite holds_app | rewrite holds_cons | rewrite finals_cons | rewrite frees_cons | rewrite errors_cons | rewrite retries_cons];
  cbn [count_of]; rewrite ?Nat.eqb_refl; cbn [fst snd].

Lemma step_add c s : inv c s -> exists s', step s EAdd = Some s' /\ inv c s'.
Proof.
  intros I. eexists. split; [reflexivity|]. destruct I as (A & B & C & D).
  assert (NV := B (next s) (le_n _)).
  assert (E : forall i, i <> next s -> view_of (set_queue (queue s ++ [next s]) (set_next (S (next s)) (set_heap (put (next s) (Some {| ds := DNone; errs := 0 |}) (heap s)) s))) i = view_of s i).
  { intros i NE. other NE. }
  assert (EJ : view_of (set_queue (queue s ++ [next s]) (set_next (S (next s)) (set_heap (put (next s) (Some {| ds := DNone; errs := 0 |}) (heap s)) s))) (next s) = V (J DNone 0) 1 0 0 [] [] [] 0 0 0 0).
  { unfold view_of, nothing in NV. injection NV as N1 N2 N3 N4 N5 N6 N7 N8 N9 N10 N11. unfold view_of. fields. rewrite put_same, cnt_app, cnt_cons_eq, N2, N3, N4, N5, N6, N7, N8, N9, N10, N11. reflexivity. }
  split; [|split; [|split]]; fields.
  - intros i. destruct (Nat.eq_dec i (next s)) as [->|NE]; [rewrite EJ; constructor|rewrite E by exact NE; apply A].
  - intros i L. rewrite E by lia. apply B. lia.
  - intros i L. destruct (Nat.eq_dec i (next s)) as [->|NE]; [rewrite EJ; discriminate|rewrite E by exact NE; apply C; lia].
  - exact D.
Qed.

(** What is known of a job in one of the situations. *)
Ltac nums := repeat match goal with
  | H : [_] = _ ++ _ :: _ |- _ => apply unit_mid in H; destruct H as (? & ? & ?)
  | H : [] = _ ++ _ :: _ |- _ => destruct (nil_mid _ _ _ H)
  | H : (_, _) = (_, _) |- _ => inversion H; subst; clear H
  | H : [] = ?a ++ ?b |- _ => symmetry in H; apply app_eq_nil in H; destruct H
  | H : heap ?s ?j = _, K : _ = heap ?s ?j |- _ => rewrite H in K
  end.
Ltac rw := repeat match goal with
  | H : _ = heap ?s ?j |- context [heap ?s ?j] => rewrite <- H
  | H : _ = cnt ?j ?l |- context [cnt ?j ?l] => rewrite <- H
  | H : _ = runs ?j ?l |- context [runs ?j ?l] => rewrite <- H
  | H : runs ?j ?l = _ |- context [runs ?j ?l] => rewrite H
  | H : _ = holds ?j ?l |- context [holds ?j ?l] => rewrite <- H
  | H : holds ?j ?l = _ |- context [holds ?j ?l] => rewrite H
  | H : ends ?j ?l = _ |- context [ends ?j ?l] => rewrite H
  | H : _ = ends ?j ?l ++ ends ?j ?m |- context [ends ?j ?l ++ ends ?j ?m] => rewrite <- H
  | H : _ = finals ?j ?l |- context [finals ?j ?l] => rewrite <- H
  | H : _ = frees ?j ?l |- context [frees ?j ?l] => rewrite <- H
  | H : _ = errors ?j ?l |- context [errors ?j ?l] => rewrite <- H
  | H : _ = retries ?j ?l |- context [retries ?j ?l] => rewrite <- H
  end.
Ltac open I j G := assert (G := proj1 I j); unfold view_of in G; rewrite ends_app in G.

Lemma step_take c s j : inv c s -> exists s', step s (ETake j) = Some s' /\ inv c s'.
Proof.
  intros I. cbn [step]. destruct (mem j (queue s)) eqn:M; [|exists s; auto]. apply mem_cnt in M.
  eexists. split; [reflexivity|]. open I j G.
  assert (E : exists v, v <> nothing /\ good c v /\ view_of (set_local ((j, First) :: local s) (set_queue (erase j (queue s)) s)) j = v).
  { same. inversion G; try lia. rw. eexists. split; [|split; [|reflexivity]]; [discriminate|constructor]. }
  destruct E as (v & N & GV & E).
  apply (inv_frame c s _ j I); [reflexivity| | | | |].
  - apply (known c s j I). unfold view_of, nothing. intros X. injection X as _ X. lia.
  - intros i NE. other NE.
  - now rewrite E.
  - now rewrite E.
  - apply I.
Qed.

Lemma inv_move c c' s s' j : inv c s -> (c' = true -> c = true) -> next s' = next s -> view_of s j <> nothing -> (forall i, i <> j -> view_of s' i = view_of s i) ->
  (c' = true -> asserts s = true -> asserts s' = true) -> (exists v, view_of s' j = v /\ v <> nothing /\ good c' v) -> inv c' s'.
Proof.
  intros I W N K E A (v & <- & NV & G). assert (I' := inv_weaken _ _ _ I W).
  apply (inv_frame c' s s' j I' N); auto; [now apply (known c s j I)|]. intros C. apply A; [exact C|]. now apply I'.
Qed.
Lemma view_known (s : state) (j : nat) : heap s j <> None \/ holds j (hold s) <> [] -> view_of s j <> nothing.
Proof. intros H X. unfold view_of, nothing in X. injection X as X1 _ _ _ _ _ X2. tauto. Qed.
Lemma mem_true (s : state) j : 1 = cnt j (inprog s) -> mem j (inprog s) = true.
Proof. intros H. apply mem_cnt. lia. Qed.
Lemma mem_false (s : state) j : 0 = cnt j (inprog s) -> mem j (inprog s) = false.
Proof. intros H. now apply mem_cnt_false. Qed.

Ltac norm := unfold cnt; cbn [app Nat.add Nat.sub count_occ errs ds];
  match goal with
  | |- good _ (V (Some {| ds := ?d; errs := ?e |}) _ _ _ _ _ _ _ _ ?se _) => change (Some {| ds := d; errs := e |}) with (J d se)
  | _ => idtac
  end.
Ltac result := eexists; split; [reflexivity|split; [discriminate|]]; norm; first [solve [constructor; auto; try congruence; try lia] | idtac].
Ltac finish I j := eexists; split; [reflexivity|]; apply (inv_move _ _ _ _ j I);
  [auto | reflexivity | apply view_known; left; unfold J in *; congruence | let i := fresh "i" in let NE := fresh "NE" in intros i NE; other NE
  | fields; try rewrite mem_true by assumption; cbn [andb]; auto | same; rw; result].

Ltac cases G := inversion G; subst; nums; subst; try lia; try congruence; try discriminate; try match goal with H : holder _ |- _ => solve [destruct H] end.
Ltac hp := repeat match goal with H : J _ _ = heap ?s ?j |- context [heap ?s ?j] => rewrite <- H end; cbn [J ds errs].

Lemma step_first c s j r : inv c s -> exists s', step s (EFirst j r) = Some s' /\ inv c s'.
Proof.
  intros I. cbn [step]. destruct (pull _ (local s)) as [[[j' k] rest]|] eqn:P; [|exists s; auto].
  destruct (pull_spec _ _ _ _ P) as (Q & a & b & L & ->). unfold is_run in Q. cbn [fst snd] in Q. apply andb_true_iff in Q. destruct Q as [Q1 Q2].
  apply Nat.eqb_eq in Q1. subst j'. destruct k; try discriminate. clear Q2 P.
  open I j G. rewrite L, runs_app, runs_cons in G. cases G. fields. hp. destruct r as [r|].
  - eexists. split; [reflexivity|]. apply (inv_move c c s _ j I); auto.
    + apply view_known. left. unfold J in *. congruence.
    + intros i NE. unfold view_of. fields. rewrite L. f_equal; [now rewrite !runs_app, runs_other by exact NE|]. rewrite !ends_app, ends_other by exact NE. cbn. now rewrite app_nil_r.
    + same. rw. eexists. split; [reflexivity|split; [discriminate|]]. constructor.
  - unfold set_ds. fields. hp. eexists. split; [reflexivity|]. apply (inv_move c c s _ j I); auto.
    + apply view_known. left. unfold J in *. congruence.
    + intros i NE. unfold view_of. fields. rewrite L. f_equal; [now rewrite put_other| |now rewrite !runs_app, runs_other by exact NE].
      rewrite cnt_app, cnt_cons_neq by exact NE. cbn. lia.
    + same. rw. eexists. split; [reflexivity|split; [discriminate|]]. norm. now apply g_avail; lia.
Qed.

Lemma step_take_own c s j : inv c s -> exists s', step s (ETakeOwn j) = Some s' /\ inv c s'.
Proof.
  intros I. cbn [step]. destruct (mem j (avail s)) eqn:M; [|exists s; auto]. apply mem_cnt in M.
  open I j G. cases G. hp. unfold set_ds. fields. hp. finish I j.
Qed.
Lemma step_race c s j : inv c s -> exists s', step s (ERace j) = Some s' /\ inv c s'.
Proof.
  intros I. cbn [step]. destruct (mem j (inprog s)) eqn:M; [|exists s; auto]. apply mem_cnt in M.
  open I j G. cases G; hp; try (exists s; now auto). unfold set_ds. fields. hp. finish I j.
Qed.

Ltac pulled P L := let Q := fresh "Q" in let a := fresh "a" in let b := fresh "b" in
  destruct (pull_spec _ _ _ _ P) as (Q & a & b & L & ->); unfold is_run, is_hold in Q; cbn [fst snd] in Q;
  rewrite ?andb_true_iff, ?Nat.eqb_eq in Q; clear P.

Lemma step_finish c s j r : inv c s -> exists s', step s (EFinish j r) = Some s' /\ inv c s'.
Proof.
  intros I. cbn [step]. destruct (pull _ (local s)) as [[[j' k] rest]|] eqn:P; [|exists s; auto]. pulled P L. destruct Q as [-> Q].
  open I j G. rewrite L, runs_app, runs_cons in G. unfold finished_remote. fields. cases G.
  - hp. rewrite mem_true by assumption. unfold set_ds. fields. hp. cbn [bind]. finish I j.
  - hp. finish I j.
  - hp. destruct r; cbn [is_result negb]; unfold set_ds; fields; hp; cbn [bind]; try (rewrite mem_true by assumption; hp; cbn [bind]); finish I j.
Qed.
Lemma step_connect c s w : inv c s -> exists s', step s (EConnect w) = Some s' /\ inv c s'.
Proof. intros I. cbn [step]. destruct (_ || _); [exists s; auto|]. eexists. split; [reflexivity|]. exact I. Qed.
Lemma step_request c s w j : inv c s -> exists s', step s (ERequest w j) = Some s' /\ inv c s'.
Proof.
  intros I. cbn [step]. destruct (_ && _) eqn:M; [|exists s; auto]. apply andb_true_iff in M. destruct M as [_ M]. apply mem_cnt in M.
  open I j G. cases G. hp. unfold set_ds. fields. hp. finish I j. constructor; [exact Logic.I|lia|lia].
Qed.
Lemma step_sent c s w j : inv c s -> exists s', step s (ESent w j) = Some s' /\ inv c s'.
Proof.
  intros I. cbn [step]. destruct (pull _ (hold s)) as [[[[w' j'] h] rest]|] eqn:P; [|exists s; auto]. pulled P L. destruct Q as [[-> ->] Q]. destruct h; try discriminate.
  open I j G. rewrite L, holds_app, holds_cons in G. cases G; hp; finish I j; constructor; auto; try exact Logic.I.
Qed.
Lemma step_result c s w j ok sys : inv c s -> exists s', step s (EResult w j ok sys) = Some s' /\ inv c s'.
Proof.
  intros I. cbn [step]. destruct (_ || _); [exists s; auto|].
  destruct (pull _ (hold s)) as [[[[w' j'] h] rest]|] eqn:P; [|exists s; auto]. pulled P L. destruct Q as [[-> ->] Q]. destruct h; try discriminate.
  open I j G. rewrite L, holds_app, holds_cons in G.
  cases G; finish I j; constructor; auto; try exact Logic.I.
Qed.
Lemma count_up se : se <= 2 -> ((N.of_nat se + 1) mod 256)%N = N.of_nat (S se).
Proof. intros H. rewrite N.mod_small by lia. lia. Qed.
Lemma ends_some j r (l m : list (nat * result)) : [r] = ends j l ++ ends j m -> In (j, r) (l ++ m).
Proof. intros H. apply ends_in. rewrite ends_app, <- H. now left. Qed.

Lemma step_return c c' s w j : inv c s -> (c' = true -> c = true /\ ~ late s (EReturn w j)) ->
  exists s', step s (EReturn w j) = Some s' /\ inv c' s'.
Proof.
  intros I CC. assert (C1 : c' = true -> c = true) by tauto. assert (I' := inv_weaken _ _ _ I C1). cbn [step].
  destruct (pull _ (hold s)) as [[[[w' j'] h] rest]|] eqn:P; [|exists s; auto]. pulled P L. destruct Q as [[-> ->] Q]. destruct h as [| |ok sys| |]; try discriminate.
  assert (IH : In (w, j, Got ok sys) (hold s)) by (rewrite L; apply in_elt).
  open I' j G. rewrite L, holds_app, holds_cons in G. unfold on_return. fields.
  cases G; try contradiction; rewrite mem_true by assumption; cbn [negb]; hp; destruct sys; cbn [andb]; unfold set_ds, free; fields; rewrite ?put_same; hp; cbn [bind snd fst errs];
    rewrite ?count_up by lia.
  - finish I' j.
  - finish I' j.
  - finish I' j.
  - finish I' j.
  - finish I' j. destruct c'; [|now apply g_leak1; [|lia|lia]]. exfalso. destruct (CC eq_refl) as [_ X]. apply X. exists ok, true, r. split; [exact IH|split; [now apply ends_some|now left]].
  - finish I' j. constructor; auto. intros ->. destruct r; [reflexivity| |]; exfalso; destruct (CC eq_refl) as [_ X]; apply X; exists ok, false; eexists; (split; [exact IH|split; [apply ends_some; eassumption|right; discriminate]]).
  - finish I' j.
  - finish I' j.
Qed.

Lemma step_wait c s w j : inv c s -> exists s', step s (EWait w j) = Some s' /\ inv c s'.
Proof.
  intros I. cbn [step].
  destruct (pull _ (hold s)) as [[[[w' j'] h] rest]|] eqn:P; [|exists s; auto]. pulled P L. destruct Q as [[-> ->] Q]. destruct h as [| | |ok n|]; try discriminate.
  open I j G. rewrite L, holds_app, holds_cons in G. unfold wait_turn.
  assert (VK : view_of s j <> nothing) by (apply view_known; right; rewrite L, holds_app, holds_cons; now destruct (holds j a)).
  cases G; try contradiction; try (rewrite mem_true by assumption); try (rewrite mem_false by assumption); cbn [negb]; hp; cbn [bind];
    (eexists; split; [reflexivity|]; apply (inv_move _ _ _ _ j I);
     [auto | reflexivity | exact VK | intros i NE; other NE | fields; auto | same; rw]).
  - result.
  - result.
  - result.
  - result.
  - result. 
  - result.
Qed.
Lemma step_process c s w j disk : inv c s -> exists s', step s (EProcess w j disk) = Some s' /\ inv c s'.
Proof.
  intros I. cbn [step].
  destruct (pull _ (hold s)) as [[[[w' j'] h] rest]|] eqn:P; [|exists s; auto]. pulled P L. destruct Q as [[-> ->] Q]. destruct h as [| | | |ok sys n]; try discriminate.
  open I j G. rewrite L, holds_app, holds_cons in G. unfold process_result, finished_remote, return_unfinished. fields.
  cases G; hp.
  - destruct ok.
    + rewrite mem_true by assumption. fields. finish I j.
    + destruct sys; cbn [andb].
      * destruct (N.ltb_spec (N.of_nat (errors j (log s))) attempt_count) as [LT|LT]; unfold attempt_count in LT.
        -- unfold set_ds. fields. hp. assert (LE : (0 <? N.of_nat (errors j (log s)))%N = true) by (apply N.ltb_lt; lia). finish I j. rewrite LE. auto.
        -- rewrite mem_true by assumption. finish I j.
      * rewrite mem_true by assumption. finish I j.
  - destruct ok; cbn [andb]; rewrite mem_true by assumption; finish I j.
Qed.
Lemma step_disconnect c s w : inv c s -> exists s', step s (EDisconnect w) = Some s' /\ inv c s'.
Proof. intros I. cbn [step]. destruct (_ && _); [|exists s; auto]. eexists. split; [reflexivity|]. exact I. Qed.
Lemma step_closed c s w : inv c s -> exists s', step s (EClosed w) = Some s' /\ inv c s'.
Proof. intros I. cbn [step]. destruct (_ && _); [|exists s; auto]. eexists. split; [reflexivity|]. exact I. Qed.
Lemma step_drop c c' s w j : inv c s -> (c' = true -> c = true /\ ~ late s (EDrop w j)) ->
  exists s', step s (EDrop w j) = Some s' /\ inv c' s'.
Proof.
  intros I CC. assert (C1 : c' = true -> c = true) by tauto. assert (I' := inv_weaken _ _ _ I C1). cbn [step].
  destruct (mem w (closing s)) eqn:MC; [|exists s; auto]. apply mem_in in MC.
  destruct (pull _ (hold s)) as [[[[w' j'] h] rest]|] eqn:P; [|exists s; auto]. pulled P L. destruct Q as [[-> ->] Q]. destruct h; try discriminate.
  assert (IH : In (w, j, InFlight) (hold s)) by (rewrite L; apply in_elt).
  open I' j G. rewrite L, holds_app, holds_cons in G. unfold return_unfinished. fields.
  cases G; try contradiction; hp; unfold set_ds, free; fields; hp.
  - finish I' j.
  - finish I' j.
  - finish I' j. destruct c'; [|now apply g_leak1; [|lia|lia]]. exfalso. destruct (CC eq_refl) as [_ X]. apply X. split; [exact MC|split; [exact IH|]]. exists r. now apply ends_some.
  - finish I' j.
Qed.

Lemma ends_perm j l l' : Permutation l l' -> Permutation (ends j l) (ends j l').
Proof.
  intros P. unfold ends. apply Permutation_map. induction P; cbn [filter]; try destruct (fst x =? j); try destruct (fst y =? j); auto; [constructor|].
  now apply Permutation_trans with (filter (fun x => fst x =? j) l').
Qed.
Lemma swap_perm (l : list (nat * result)) : Permutation l (filter (fun x => is_result ROk (snd x)) l ++ filter (fun x => is_result RAborted (snd x)) l ++ filter (fun x => is_result RFailed (snd x)) l).
Proof.
  induction l as [|[j r] l IH]; [constructor|]. cbn [filter snd]. destruct r; cbn [is_result app].
  - now constructor.
  - apply Permutation_cons_app. exact IH.
  - rewrite app_assoc in *. apply Permutation_cons_app. exact IH.
Qed.
Lemma perm_short {A} (l l' : list A) : Permutation l l' -> List.length l <= 1 -> l' = l.
Proof. intros P L. destruct l as [|x [|y l]]; [now apply Permutation_nil|now apply Permutation_length_1_inv|cbn in L; lia]. Qed.
Lemma good_short c v : good c v -> List.length (vd v) <= 1.
Proof. intros G. inversion G; cbn; lia. Qed.
Lemma step_swap c s : inv c s -> exists s', step s ESwap = Some s' /\ inv c s'.
Proof.
  intros I. cbn [step]. destruct (done2 s) eqn:D; [|exists s; auto]. eexists. split; [reflexivity|].
  assert (E : forall j, view_of (set_done [] (set_done2 (filter (fun x => is_result ROk (snd x)) (done s) ++
                filter (fun x => is_result RAborted (snd x)) (done s) ++ filter (fun x => is_result RFailed (snd x)) (done s)) s)) j = view_of s j).
  { intros j. assert (X := good_short _ _ (proj1 I j)). unfold view_of in *. fields. cbn [vd] in X. f_equal. rewrite D, app_nil_r in *. cbn [app].
    apply perm_short; [|exact X]. apply ends_perm, swap_perm. }
  destruct I as (A & B & C & F). split; [|split; [|split; [|exact F]]]; intros j; rewrite ?E; auto.
Qed.
Lemma step_finalize c s : inv c s -> exists s', step s EFinalize = Some s' /\ inv c s'.
Proof.
  intros I. cbn [step]. destruct (done2 s) as [|[j r] rest] eqn:D; [exists s; auto|].
  open I j G. rewrite D, ends_cons in G. unfold finalize_one. fields.
  cases G; hp.
  - unfold free. fields. hp. finish I j.
  - cbn [is_result]. replace (is_result r ROk && false) with false by now destruct r. unfold set_ds. fields. hp. finish I j.
  - destruct r; cbn [is_result andb]; unfold free, set_ds; fields; hp.
    + finish I j.
    + destruct c; [match goal with H : true = true -> _ |- _ => discriminate (H eq_refl) end|]. finish I j.
    + destruct c; [match goal with H : true = true -> _ |- _ => discriminate (H eq_refl) end|]. finish I j.
  - match goal with H : _ \/ _ \/ _ |- _ => destruct H as [->|[->| ->]] end; unfold free; fields; hp; finish I j.
  - unfold free. fields. hp. finish I j.
  - replace (is_result r ROk && false) with false by now destruct r. unfold set_ds. fields. hp. finish I j.
Qed.

Lemma step_inv c c' s e : inv c s -> (c' = true -> c = true /\ ~ late s e) -> exists s', step s e = Some s' /\ inv c' s'.
Proof.
  intros I CC. assert (C1 : c' = true -> c = true) by tauto. assert (I' := inv_weaken _ _ _ I C1).
  destruct e; [apply step_add|apply step_take|apply step_first|apply step_take_own|apply step_race|apply step_finish|apply step_connect
    |apply step_request|apply step_sent|apply step_result|apply (step_return c)|apply step_wait|apply step_process|apply step_disconnect
    |apply (step_drop c)|apply step_closed|apply step_swap|apply step_finalize]; auto.
Qed.
Lemma init_inv c : inv c init.
Proof. split; [|split; [|split; [|reflexivity]]]; intros j; [apply g_none|reflexivity|cbn; lia]. Qed.

Lemma run_inv es : forall c s, inv c s -> (c = true -> timely s es) -> exists s', run s es = Some s' /\ inv c s'.
Proof.
  induction es as [|e es IH]; intros c s I T; cbn [run]; [exists s; auto|].
  destruct (step_inv c c s e I) as (s1 & E & I1); [intros C; split; [exact C|]; now apply T|]. rewrite E. apply IH; [exact I1|].
  intros C. specialize (T C). cbn [timely] in T. rewrite E in T. apply T.
Qed.

(** System errors, attempts and the deny list. *)
Definition denied (s : state) : Prop :=
  (forall w j, In (LSys w j) (log s) -> In w (deny s) /\ forall h, holder h -> ~ In (w, j, h) (hold s)) /\
  (forall a w j b j', log s = a ++ LSys w j :: b -> ~ In (LAttempt w j') a) /\
  (forall j, NoDup (error_workers j (log s))).

Lemma in_holds w j h l : In (w, h) (holds j l) <-> In (w, j, h) l.
Proof.
  unfold holds. rewrite in_map_iff. split.
  - intros ([[w' i] h'] & E & I). apply filter_In in I. destruct I as [I F]. apply Nat.eqb_eq in F. cbn in *. injection E as -> ->. now subst.
  - intros I. exists (w, j, h). split; [reflexivity|]. apply filter_In. split; [exact I|apply Nat.eqb_refl].
Qed.
Lemma error_workers_in w j l : In w (error_workers j l) <-> In (LSys w j) l.
Proof.
  induction l as [|e l IH]; [reflexivity|]. destruct e; cbn [error_workers]; rewrite ?IH; try (split; [intros; now right|intros [X|X]; [discriminate|exact X]]).
  destruct (Nat.eqb_spec j0 j) as [->|NE]; cbn [In]; rewrite IH.
  - split; intros [X|X]; auto; left; congruence.
  - split; [auto|]. intros [X|X]; [congruence|exact X].
Qed.
Definition neutral (e : entry) : Prop := match e with LSys _ _ | LAttempt _ _ => False | _ => True end.
Lemma denied_ext s s' l : denied s -> log s' = l ++ log s -> Forall neutral l -> (forall x, In x (deny s) -> In x (deny s')) ->
  (forall w j h, holder h -> In (w, j, h) (hold s') -> exists h', holder h' /\ In (w, j, h') (hold s)) -> denied s'.
Proof.
  intros (A & B & C) L F D H.
  assert (F' : forall e, In e l -> neutral e) by now apply Forall_forall.
  split; [|split]; rewrite L.
  - intros w j I. apply in_app_or in I. destruct I as [I|I]; [destruct (F' _ I)|]. destruct (A w j I) as [A1 A2]. split; [auto|].
    intros h HH X. destruct (H w j h HH X) as (h' & H1 & H2). now apply (A2 h').
  - clear L F. induction l as [|e l IH]; [exact B|]. intros a w j b j' X. destruct a as [|e' a]; [injection X as -> _; destruct (F' _ (or_introl eq_refl))|].
    injection X as -> X. intros [->|I]; [destruct (F' _ (or_introl eq_refl))|]. apply (IH (fun e I => F' e (or_intror I)) a w j b j' X I).
  - intros j. clear L F. induction l as [|e l IH]; [apply C|]. assert (X := IH (fun e I => F' e (or_intror I))). assert (Y := F' e (or_introl eq_refl)).
    destruct e; cbn [error_workers app]; auto. destruct Y.
Qed.
Definition calm (s s' : state) : Prop := deny s' = deny s /\ hold s' = hold s /\ exists l, log s' = l ++ log s /\ Forall neutral l.
Lemma calm_refl s : calm s s. Proof. split; [|split]; auto. exists []. auto. Qed.
Lemma calm_trans a b c : calm a b -> calm b c -> calm a c.
Proof. intros (A1 & A2 & l & A3 & A4) (B1 & B2 & m & B3 & B4). split; [congruence|split; [congruence|]]. exists (m ++ l). rewrite B3, A3, app_assoc. split; [reflexivity|]. now apply Forall_app. Qed.
Lemma calm_plain s s' : deny s' = deny s -> hold s' = hold s -> log s' = log s -> calm s s'.
Proof. intros A B C. split; [|split]; auto. exists []. auto. Qed.
Lemma calm_set_ds j d s s' : set_ds j d s = Some s' -> calm s s'.
Proof. unfold set_ds. destruct (heap s j); [|discriminate]. intros [= <-]. now apply calm_plain. Qed.
Lemma calm_free j s s' : free j s = Some s' -> calm s s'.
Proof. unfold free. destruct (heap s j); [|discriminate]. intros [= <-]. split; [|split]; auto. exists [LFreed j]. split; [reflexivity|]. repeat constructor. Qed.
Ltac calmly := first [reflexivity | assumption | (eapply calm_trans; [|eapply calm_set_ds; eassumption]; now apply calm_plain) | (eapply calm_trans; [|eapply calm_free; eassumption]; now apply calm_plain)].
Lemma calm_finished j r s s' : finished_remote j r s = Some s' -> calm s s'.
Proof.
  unfold finished_remote. destruct (heap s j) as [b|]; [|discriminate]. fields.
  assert (X : forall d, bind (set_ds j d (set_inprog (erase j (inprog s)) (assert (mem j (inprog s)) s))) (fun s0 => Some (complete j r s0)) = Some s' -> calm s s').
  { intros d. destruct (set_ds _ _ _) as [s1|] eqn:E; cbn [bind]; [|discriminate]. intros [= <-]. apply (calm_trans s s1); [|now apply calm_plain]. calmly. }
  destruct (ds b); try (intros [= <-]; now apply calm_plain).
  - destruct (mem j (inprog s)); [|discriminate]. intros [= <-]. now apply calm_plain.
  - destruct (mem j (inprog s)); [|discriminate]. apply X.
  - destruct (negb (is_result r ROk)); [intros E; calmly|]. destruct (mem j (inprog s)); [|discriminate]. apply X.
  - destruct (mem j (inprog s)); [|discriminate]. intros [= <-]. now apply calm_plain.
Qed.
Lemma calm_unfinished j s s' : return_unfinished j s = Some s' -> calm s s'.
Proof.
  unfold return_unfinished. destruct (heap s j) as [b|]; [|discriminate]. destruct (ds b); intros E; calmly.
Qed.
Lemma calm_finalize j r s s' : finalize_one j r s = Some s' -> calm s s'.
Proof.
  unfold finalize_one. destruct (heap s j) as [b|]; [|discriminate]. fields.
  assert (X : calm s (note (LFinal j r) s)) by (split; [|split]; auto; exists [LFinal j r]; split; [reflexivity|repeat constructor]).
  intros E. apply (calm_trans _ _ _ X). destruct (ds b); try calmly; destruct (_ && _); calmly.
Qed.
Lemma denied_calm s s' : denied s -> calm s s' -> denied s'.
Proof. intros D (A & B & l & C & F). apply (denied_ext s s' l D C F); rewrite ?A, ?B; eauto. Qed.
Lemma denied_less s rest a x b : denied s -> hold s = a ++ x :: b -> rest = a ++ b -> denied (set_hold rest s).
Proof.
  intros D E ->. apply (denied_ext s _ [] D); auto. fields. intros w j h HH I. exists h. split; [exact HH|]. rewrite E. apply in_app_or in I. apply in_or_app. destruct I; [now left|right; now right].
Qed.
Lemma denied_swap s a w j h h' b : denied s -> hold s = a ++ (w, j, h) :: b -> (holder h' -> holder h) -> denied (set_hold ((w, j, h') :: a ++ b) s).
Proof.
  intros D E HH. apply (denied_ext s _ [] D); auto. fields. intros w0 j0 h0 X [I|I].
  - injection I as <- <- <-. exists h. split; [auto|]. rewrite E. apply in_elt.
  - exists h0. split; [exact X|]. rewrite E. apply in_app_or in I. apply in_or_app. destruct I; [now left|right; now right].
Qed.
Lemma denied_step c s e s' : inv c s -> denied s -> step s e = Some s' -> denied s'.
Proof.
  intros I D. destruct e; cbn [step].
  - intros [= <-]. apply (denied_calm s _ D). now apply calm_plain.
  - destruct (mem j (queue s)); intros [= <-]; first [exact D | apply (denied_calm s _ D); now apply calm_plain].
  - destruct (pull _ _) as [[x rest]|]; [|intros [= <-]; exact D]. fields. destruct (heap s j) as [b|]; [|discriminate]. destruct r as [r|].
    + intros [= <-]. apply (denied_calm s _ D). now apply calm_plain.
    + intros E. apply (denied_calm s _ D). calmly.
  - destruct (mem j (avail s)); [|intros [= <-]; exact D]. destruct (heap s j); [|discriminate]. intros E. apply (denied_calm s _ D). calmly.
  - destruct (mem j (inprog s)); [|intros [= <-]; exact D]. destruct (heap s j) as [b|]; [|discriminate].
    destruct (ds b); try (intros [= <-]; exact D); intros E; apply (denied_calm s _ D); calmly.
  - destruct (pull _ _) as [[x rest]|]; [|intros [= <-]; exact D]. intros E. apply calm_finished in E. apply (denied_calm s _ D). apply (calm_trans _ (set_local rest s)); [now apply calm_plain|exact E].
  - destruct (_ || _); intros [= <-]; first [exact D | apply (denied_calm s _ D); now apply calm_plain].
  - destruct (_ && _) eqn:M; [|intros [= <-]; exact D]. rewrite !andb_true_iff, !negb_true_iff in M. destruct M as [[[[M1 M2] M3] M4] M5].
    destruct (heap s j) as [b|]; [|discriminate]. intros E. apply calm_set_ds in E.
    assert (ND : ~ In w (deny s)) by (rewrite <- mem_in, M4; discriminate).
    apply (fun X => denied_calm _ _ X E). destruct D as (A & B & C). split; [|split]; fields.
    + intros w0 j0 [X|X]; [discriminate|]. destruct (A _ _ X) as [A1 A2]. split; [exact A1|]. intros h HH [Y|Y]; [injection Y as <- <- <-; auto|now apply (A2 h HH)].
    + intros a w0 j0 b0 j' X. destruct a as [|e a]; [discriminate|]. injection X as <- X. intros [Y|Y].
      * injection Y as -> ->. apply ND. apply (A w0 j0). rewrite X. apply in_elt.
      * now apply (B a w0 j0 b0 j' X).
    + exact C.
  - destruct (pull _ _) as [[[[w' j'] h] rest]|] eqn:P; [|intros [= <-]; exact D]. pulled P L. destruct Q as [[-> ->] Q]. destruct h; try discriminate.
    destruct (heap s j); [|discriminate]. intros [= <-]. now apply (denied_swap s _ w j Taking).
  - destruct (_ || _); [intros [= <-]; auto|].
    destruct (pull _ _) as [[[[w' j'] h] rest]|] eqn:P; [|intros [= <-]; exact D]. pulled P L. destruct Q as [[-> ->] Q]. destruct h; try discriminate.
    intros [= <-]. now apply (denied_swap s _ w j InFlight).
  - destruct (pull _ _) as [[[[w' j'] h] rest]|] eqn:P; [|intros [= <-]; exact D]. pulled P L. destruct Q as [[-> ->] Q]. destruct h as [| |ok sys| |]; try discriminate.
    open I j G. rewrite L, holds_app, holds_cons in G. unfold on_return. fields.
    assert (ONE : holds j (a ++ b) = []) by (rewrite holds_app; inversion G; nums; rw; reflexivity). clear G.
    assert (D0 : denied (set_hold (a ++ b) s)) by (eapply denied_less; eauto).
    destruct (negb _); [discriminate|]. destruct (heap s j) as [jb|]; [|discriminate]. fields.
    set (s1 := if sys then _ else _). intros E.
    assert (D1 : denied s1 /\ hold s1 = a ++ b).
    { unfold s1. destruct sys; [|split; [exact D0|reflexivity]]. split; [|reflexivity]. destruct D as (A & B & C). split; [|split]; fields.
      - intros w0 j0 [X|X].
        + injection X as <- <-. split; [now left|]. intros h _ Y. apply in_holds in Y. rewrite ONE in Y. destruct Y.
        + destruct D0 as (A0 & _). destruct (A0 _ _ X) as [A1 A2]. split; [now right|exact A2].
      - intros a0 w0 j0 b0 j' X. destruct a0 as [|e0 a0]; [intros []|]. injection X as <- X. intros [Y|Y]; [discriminate|]. now apply (B a0 w0 j0 b0 j' X).
      - intros j0. cbn [error_workers]. destruct (Nat.eqb_spec j j0) as [<-|NE]; [|apply C]. constructor; [|apply C]. rewrite error_workers_in. intros X.
        destruct (A _ _ X) as [_ A2]. apply (A2 (Got ok true)); [exact Logic.I|]. rewrite L. apply in_elt. }
    clearbody s1. destruct D1 as [D1 H1].
    assert (F : forall s2 h, denied s2 -> hold s2 = a ++ b -> ~ holder h -> denied (set_hold ((w, j, h) :: a ++ b) s2)).
    { intros s2 h D2 H2 NH. apply (denied_ext s2 _ [] D2); auto. fields. intros w0 j0 h0 X [Y|Y]; [injection Y as <- <- <-; tauto|]. exists h0. rewrite H2. auto. }
    revert E. destruct (sys && _).
    { destruct (set_ds _ _ _) as [s2|] eqn:E; [|discriminate]. intros [= <-]. apply (denied_calm _ _ D1). calmly. }
    destruct (ds jb); try (cbn [bind snd fst]; intros [= <-]; apply (denied_calm s1 _ D1); now apply calm_plain);
      first [destruct (set_ds _ _ _) as [s2|] eqn:E; [|discriminate] | destruct (free _ _) as [s2|] eqn:E; [|discriminate]];
      intros [= <-]; cbn [bind fst snd].
    + apply calm_set_ds in E. apply F; [now apply (denied_calm s1)|destruct E as (_ & E & _); congruence|auto].
    + apply calm_set_ds in E. apply F; [now apply (denied_calm s1)|destruct E as (_ & E & _); congruence|auto].
    + apply (denied_calm s1 _ D1). calmly.
  - destruct (pull _ _) as [[[[w' j'] h] rest]|] eqn:P; [|intros [= <-]; exact D]. pulled P L. destruct Q as [[-> ->] Q]. destruct h as [| | |ok n|]; try discriminate.
    unfold wait_turn. destruct (negb _); [intros [= <-]; eapply denied_less; eauto|]. destruct (heap s j) as [b0|]; [|discriminate].
    destruct (ds b0); intros [= <-]; try (eapply denied_less; eauto; fail); apply (denied_swap s _ w j (Waiting ok n)); auto.
  - destruct (pull _ _) as [[[[w' j'] h] rest]|] eqn:P; [|intros [= <-]; exact D]. pulled P L. destruct Q as [[-> ->] Q]. destruct h as [| | | |ok sys n]; try discriminate.
    assert (D0 : denied (set_hold (a ++ b) s)) by (eapply denied_less; eauto). unfold process_result.
    destruct ok; [intros E; apply calm_finished in E; now apply (denied_calm _ _ D0)|]. destruct (_ && _); intros E.
    + apply calm_unfinished in E. apply (denied_calm _ _ D0). eapply calm_trans; [|exact E]. split; [|split]; auto. exists [LRetry j]. split; [reflexivity|repeat constructor].
    + apply calm_finished in E. now apply (denied_calm _ _ D0).
  - destruct (_ && _); intros [= <-]; first [exact D | apply (denied_calm s _ D); now apply calm_plain].
  - destruct (mem w (closing s)); [|intros [= <-]; exact D].
    destruct (pull _ _) as [[[[w' j'] h] rest]|] eqn:P; [|intros [= <-]; exact D]. pulled P L.
    assert (D0 : denied (set_hold (a ++ b) s)) by (eapply denied_less; eauto). intros E. apply calm_unfinished in E. now apply (denied_calm _ _ D0).
  - destruct (_ && _); intros [= <-]; first [exact D | apply (denied_calm s _ D); now apply calm_plain].
  - destruct (done2 s); intros [= <-]; first [exact D | apply (denied_calm s _ D); now apply calm_plain].
  - destruct (done2 s) as [|[j r] rest]; [intros [= <-]; auto|]. intros E. apply calm_finalize in E. apply (denied_calm s _ D). apply (calm_trans _ (set_done2 rest s)); [now apply calm_plain|exact E].
Qed.
Lemma init_denied : denied init.
Proof. split; [intros w j []|split; [intros [|? ?]; discriminate|intros j; constructor]]. Qed.
Lemma run_denied es : forall s s', inv false s -> denied s -> run s es = Some s' -> denied s'.
Proof.
  induction es as [|e es IH]; intros s s' I D; cbn [run]; [intros [= <-]; exact D|].
  destruct (step_inv false false s e I) as (s1 & E & I1); [discriminate|]. rewrite E. apply IH; [exact I1|]. now apply (denied_step false s e).
Qed.
