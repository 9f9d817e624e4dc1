(** Invariants of the worker's job life cycle. *)
From Coq Require Import List Arith Bool NArith Lia.
From Verif Require Import M_Remote.
Import ListNotations.

Definition cnt (x : nat) (l : list nat) : nat := count_occ Nat.eq_dec l x.
Lemma cnt_app x a b : cnt x (a ++ b) = cnt x a + cnt x b.
Proof. apply count_occ_app. Qed.
Definition one (x a : nat) : nat := if Nat.eq_dec a x then 1 else 0.
Lemma cnt_cons x a l : cnt x (a :: l) = one x a + cnt x l.
Proof. unfold cnt, one; cbn. destruct (Nat.eq_dec a x); reflexivity. Qed.
Lemma cnt_in x l : In x l <-> cnt x l > 0.
Proof. apply count_occ_In. Qed.
Lemma cnt_nil x : cnt x [] = 0. Proof. reflexivity. Qed.
Lemma cnt_one x y : cnt x [y] = one x y.
Proof. rewrite cnt_cons. apply Nat.add_0_r. Qed.
Lemma nodup_cnt l : NoDup l <-> forall x, cnt x l <= 1.
Proof. apply NoDup_count_occ. Qed.

Lemma take_spec {A} (f : A -> bool) l y r : take f l = Some (y, r) ->
  f y = true /\ (exists a b, l = a ++ y :: b /\ r = a ++ b).
Proof.
  revert y r; induction l as [|x l IH]; cbn; intros y r H; [discriminate|].
  destruct (f x) eqn:E.
  - injection H as <- <-. split; auto. now exists [], l.
  - destruct (take f l) as [[z r']|] eqn:T; [|discriminate]. injection H as <- <-.
    destruct (IH _ _ eq_refl) as (F & a & b & -> & ->). split; auto. now exists (x :: a), b.
Qed.
Lemma cnt_filter x (f : job -> bool) l :
  cnt x (ids l) = cnt x (ids (filter f l)) + cnt x (ids (filter (fun j => negb (f j)) l)).
Proof.
  induction l as [|j l IH]; [reflexivity|]. cbn [filter ids map].
  destruct (f j); cbn [negb ids map]; rewrite !cnt_cons; fold (ids l); rewrite IH; unfold ids; lia.
Qed.
Lemma ids_unhook a l : ids (map (unhook a) l) = ids l.
Proof. unfold ids. rewrite map_map. apply map_ext. intro j. unfold unhook. destruct (user_is a j); reflexivity. Qed.

(** All identifiers ever: in the lists or deleted, one of each, below the next. *)
Definition all_ids (s : state) : list nat := ids (live s) ++ freed s.
Definition hand_ids (s : state) := match hand s with Some (j, _) => [j_id j] | None => [] end.
Lemma all_cnt s x : cnt x (all_ids s) =
  cnt x (ids (waiting s)) + cnt x (ids (pending s)) + cnt x (ids (flight s)) + cnt x (map (fun p => j_id (fst p)) (leaving s)) +
  cnt x (map (fun p => j_id (fst p)) (pushing s)) + cnt x (ids (done s)) + cnt x (ids (failed s)) + cnt x (ids (aborted s)) +
  cnt x (hand_ids s) + cnt x (freed s).
Proof.
  unfold all_ids, live, hand_ids, ids. rewrite !map_app, !map_map, !cnt_app.
  destruct (hand s) as [[j r]|]; cbn [map]; lia.
Qed.

Lemma step_ids s e s' : step s e = Some s' -> forall x,
  cnt x (all_ids s') = cnt x (all_ids s) + (if Nat.eq_dec (next_job s) (next_job s') then 0 else cnt x [next_job s]).
Proof.
  intros H x. rewrite !all_cnt. unfold hand_ids. assert (O1 := cnt_one x).
  destruct e; cbn [step] in H.
  - destruct (find_client a (clients s)); [discriminate|]. injection H as <-.
    cbn [waiting pending flight leaving pushing done failed aborted hand freed next_job].
    destruct (Nat.eq_dec (next_job s) (next_job s)); lia.
  - destruct (find_client a (clients s)) as [c|]; [|discriminate]. destruct (phase a (closing s)); [discriminate|].
    injection H as <-. cbn [waiting pending flight leaving pushing done failed aborted hand freed next_job].
    destruct (Nat.eq_dec (next_job s) (S (next_job s))); [lia|].
    destruct ready; unfold ids; rewrite map_app, cnt_app; cbn [map j_id]; rewrite ?O1; lia.
  - destruct (take _ (waiting s)) as [[j w]|] eqn:T; [|discriminate]. injection H as <-.
    destruct (take_spec _ _ _ _ T) as (_ & a & b & -> & ->).
    cbn [waiting pending flight leaving pushing done failed aborted hand freed next_job].
    destruct (Nat.eq_dec (next_job s) (next_job s)); [|lia].
    unfold ids. rewrite !map_app, !cnt_app. cbn [map]. rewrite (cnt_cons x _ (map j_id b)), ?O1. lia.
  - destruct (pending s) as [|j p] eqn:P; [discriminate|]. injection H as <-.
    cbn [waiting pending flight leaving pushing done failed aborted hand freed next_job].
    destruct (Nat.eq_dec (next_job s) (next_job s)); [|lia].
    unfold ids. rewrite !map_app, !cnt_app. cbn [map]. rewrite (cnt_cons x _ (map j_id p)), ?O1. lia.
  - destruct (take _ (flight s)) as [[j w]|] eqn:T; [|discriminate]. injection H as <-.
    destruct (take_spec _ _ _ _ T) as (_ & a & b & -> & ->).
    cbn [waiting pending flight leaving pushing done failed aborted hand freed next_job].
    destruct (Nat.eq_dec (next_job s) (next_job s)); [|lia].
    unfold ids. rewrite !map_app, !cnt_app. cbn [map fst]. rewrite (cnt_cons x _ (map j_id b)), ?O1. lia.
  - destruct (take _ (leaving s)) as [[[j r] w]|] eqn:T; [|discriminate].
    destruct (take_spec _ _ _ _ T) as (_ & a & b & -> & ->). cbn [fst] in H.
    destruct (j_user j); injection H as <-;
      cbn [waiting pending flight leaving pushing done failed aborted hand freed next_job];
      (destruct (Nat.eq_dec (next_job s) (next_job s)); [|lia]);
      rewrite !map_app, !cnt_app; cbn [map fst]; rewrite (cnt_cons x _ (map _ b)), ?O1; lia.
  - destruct (take _ (pushing s)) as [[[j r] w]|] eqn:T; [|discriminate].
    destruct (take_spec _ _ _ _ T) as (_ & a & b & -> & ->).
    injection H as <-;
      cbn [waiting pending flight leaving pushing done failed aborted hand freed next_job].
    destruct (Nat.eq_dec (next_job s) (next_job s)); [|lia].
    destruct r; unfold ids; rewrite !map_app, !cnt_app; cbn [map fst]; rewrite (cnt_cons x _ (map _ b)), ?O1; lia.
  - destruct (hand s) as [h|]; [discriminate|].
    destruct (done s) as [|j d] eqn:D; [destruct (failed s) as [|j d] eqn:F; [destruct (aborted s) as [|j d] eqn:B; [discriminate|]|]|];
      injection H as <-; cbn [waiting pending flight leaving pushing done failed aborted hand freed next_job];
      (destruct (Nat.eq_dec (next_job s) (next_job s)); [|lia]);
      rewrite ?D, ?F, ?B; unfold ids; cbn [map]; rewrite ?cnt_nil, (cnt_cons x _ (map _ d)), ?O1; lia.
  - destruct (hand s) as [[j r]|]; [|discriminate]. injection H as <-.
    cbn [waiting pending flight leaving pushing done failed aborted hand freed next_job].
    destruct (Nat.eq_dec (next_job s) (next_job s)); [|lia].
    rewrite !cnt_app, cnt_nil. lia.
  - destruct (find_client a (clients s)); [|discriminate].
    destruct (phase a (closing s)) as [[|[|[|p]]]|]; injection H as <-;
      cbn [waiting pending flight leaving pushing done failed aborted hand freed next_job];
      (destruct (Nat.eq_dec (next_job s) (next_job s)); [|lia]);
      rewrite ?cnt_app, ?ids_unhook; try lia.
    + rewrite (cnt_filter x (user_is a) (waiting s)). lia.
    + rewrite (cnt_filter x (user_is a) (done s)). lia.
    + rewrite (cnt_filter x (user_is a) (waiting s)). lia.
    + rewrite (cnt_filter x (user_is a) (pending s)). lia.
Qed.
Lemma step_next s e s' : step s e = Some s' ->
  next_job s' = next_job s /\ born s' = born s \/
  next_job s' = S (next_job s) /\ exists a c, find_client a (clients s) = Some c /\ phase a (closing s) = None /\
     born s' = born s ++ [(next_job s, c_conn c)].
Proof.
  intros H. destruct e; cbn [step] in H;
    repeat match type of H with
    | match ?x with _ => _ end = _ => destruct x eqn:?; try discriminate H
    end; injection H as <-; cbn [next_job born]; auto.
  right. split; [reflexivity|]. eauto.
Qed.
Lemma run_ind_inv (P : state -> Prop) : P init -> (forall s e s', P s -> step s e = Some s' -> P s') ->
  forall es s, run init es = Some s -> P s.
Proof.
  intros I0 I1 es. assert (G : forall es s0 s, P s0 -> run s0 es = Some s -> P s).
  { clear es. induction es as [|e es IH]; cbn; intros s0 s H0 H; [congruence|].
    destruct (step s0 e) eqn:E; [|discriminate]. exact (IH _ _ (I1 _ _ _ H0 E) H). }
  intros s H. exact (G _ _ _ I0 H).
Qed.
Definition idinv (s : state) : Prop :=
  (forall x, cnt x (all_ids s) = if x <? next_job s then 1 else 0) /\ map fst (born s) = seq 0 (next_job s).
Lemma step_idinv s e s' : idinv s -> step s e = Some s' -> idinv s'.
Proof.
  intros [I B] H. assert (S1 := step_ids _ _ _ H). destruct (step_next _ _ _ H) as [[N E]|[N (a & c & _ & _ & E)]].
  - split; [|rewrite E, N; exact B]. intro x. rewrite S1, I, N. destruct (Nat.eq_dec (next_job s) (next_job s)); lia.
  - split.
    + intro x. rewrite S1, I, N, cnt_one. unfold one. destruct (Nat.eq_dec (next_job s) (S (next_job s))); [lia|].
      destruct (Nat.ltb_spec x (next_job s)), (Nat.ltb_spec x (S (next_job s))), (Nat.eq_dec (next_job s) x); lia.
    + rewrite E, N, map_app, B, seq_S. reflexivity.
Qed.

Ltac stepcases H :=
  repeat match type of H with
  | match ?x with _ => _ end = _ => destruct x eqn:?; try discriminate H
  | (let _ := _ in _) = _ => cbv zeta in H
  end; injection H as <-.
Ltac projs := cbn [clients waiting pending flight leaving pushing done failed aborted hand closing next_conn next_job conns born freed sent dropped] in *.

Lemma in_live s j : In j (live s) <->
  In j (waiting s) \/ In j (pending s) \/ In j (flight s) \/ In j (map fst (leaving s)) \/ In j (map fst (pushing s)) \/
  In j (done s) \/ In j (failed s) \/ In j (aborted s) \/ (exists r, hand s = Some (j, r)).
Proof.
  unfold live. rewrite !in_app_iff. destruct (hand s) as [[j' r]|]; cbn [In]; split; intros; repeat destruct H as [H|H];
    auto 12; try (subst; eauto 12; fail); try (destruct H; discriminate); try contradiction.
  - destruct H as [r' E]. injection E as -> ->. auto 12.
Qed.
Lemma in_take {A} (f : A -> bool) l y r : take f l = Some (y, r) -> In y l /\ (forall x, In x r -> In x l) /\ f y = true.
Proof.
  intro T. destruct (take_spec _ _ _ _ T) as (F & a & b & -> & ->). split; [|split]; auto.
  - apply in_elt.
  - intros x. rewrite !in_app_iff. cbn. tauto.
Qed.
Lemma live_step s e s' j : step s e = Some s' -> In j (live s') ->
  In j (live s) \/
  (exists a b c, e = Arrive a b /\ find_client a (clients s) = Some c /\ j = mkJob (next_job s) (c_conn c) (Some a)) \/
  (exists a j0, e = Close a /\ phase a (closing s) = Some 2 /\ find_client a (clients s) <> None /\ In j0 (live s) /\ j = unhook a j0).
Proof.
  intros H I. rewrite in_live in I. rewrite in_live.
  destruct e; cbn [step] in H.
  - stepcases H. projs. left. tauto.
  - destruct (find_client a (clients s)) as [c|] eqn:F; [|discriminate]. destruct (phase a (closing s)); [discriminate|].
    injection H as <-. projs.
    assert (X : forall l, In j (l ++ [mkJob (next_job s) (c_conn c) (Some a)]) -> In j l \/ j = mkJob (next_job s) (c_conn c) (Some a)).
    { intros l Q. apply in_app_or in Q. destruct Q as [Q|[Q|[]]]; auto. }
    assert (X1 := X (waiting s)). assert (X2 := X (pending s)). clear X.
    assert (G : j = mkJob (next_job s) (c_conn c) (Some a) \/
      (In j (waiting s) \/ In j (pending s) \/ In j (flight s) \/ In j (map fst (leaving s)) \/ In j (map fst (pushing s)) \/
  In j (done s) \/ In j (failed s) \/ In j (aborted s) \/ (exists r, hand s = Some (j, r)))) by (destruct ready; tauto).
    destruct G as [G|G]; [right; left; eauto 8|left; exact G].
  - destruct (take _ (waiting s)) as [[j0 w]|] eqn:T; [|discriminate]. injection H as <-. projs.
    destruct (in_take _ _ _ _ T) as (T1 & T2 & _). left. assert (Q := T2 j). rewrite in_app_iff in I. cbn in I.
    repeat (destruct I as [I|I]; subst; auto 12); tauto.
  - destruct (pending s) as [|j0 p] eqn:P; [discriminate|]. injection H as <-. projs. left. rewrite in_app_iff in I. cbn in *. 
    repeat (destruct I as [I|I]; subst; auto 12); tauto.
  - destruct (take _ (flight s)) as [[j0 w]|] eqn:T; [|discriminate]. injection H as <-. projs.
    destruct (in_take _ _ _ _ T) as (T1 & T2 & _). left. assert (Q := T2 j). rewrite map_app, in_app_iff in I. cbn in I.
    repeat (destruct I as [I|I]; subst; auto 12); tauto.
  - destruct (take _ (leaving s)) as [[[j0 r] w]|] eqn:T; [|discriminate]. cbn [fst] in H.
    destruct (in_take _ _ _ _ T) as (T1 & T2 & _). left.
    assert (Q : In j (map fst w) -> In j (map fst (leaving s))) by (rewrite !in_map_iff; intros (x & E & X); eauto).
    assert (Q' : In j0 (map fst (leaving s))) by (apply in_map_iff; now exists (j0, r)).
    destruct (j_user j0); injection H as <-; projs; [rewrite map_app, in_app_iff in I; cbn in I|];
      repeat (destruct I as [I|I]; subst; auto 12); tauto.
  - destruct (take _ (pushing s)) as [[[j0 r] w]|] eqn:T; [|discriminate].
    destruct (in_take _ _ _ _ T) as (T1 & T2 & _). left.
    assert (Q : In j (map fst w) -> In j (map fst (pushing s))) by (rewrite !in_map_iff; intros (x & E & X); eauto).
    assert (Q' : In j0 (map fst (pushing s))) by (apply in_map_iff; now exists (j0, r)).
    injection H as <-; projs. destruct r; rewrite in_app_iff in I; cbn in I;
      repeat (destruct I as [I|I]; subst; auto 12); tauto.
  - destruct (hand s) as [h|]; [discriminate|]. left.
    assert (Q : forall (j0 : job) (r0 : result), (exists r, Some (j0, r0) = Some (j, r)) -> j = j0) by (intros j0 r0 [r E]; congruence).
    destruct (done s) as [|j0 d] eqn:D; [destruct (failed s) as [|j0 d] eqn:F; [destruct (aborted s) as [|j0 d] eqn:B; [discriminate|]|]|];
      injection H as <-; projs; specialize (Q j0); rewrite ?D, ?F, ?B in *; cbn [In] in *;
      repeat (destruct I as [I|I]; auto 12); apply Q in I; subst; auto 12.
  - destruct (hand s) as [[j0 r]|]; [|discriminate]. injection H as <-. projs. left.
    repeat (destruct I as [I|I]; auto 12). destruct I; discriminate.
  - destruct (find_client a (clients s)) eqn:F; [|discriminate].
    destruct (phase a (closing s)) as [[|[|[|p]]]|] eqn:P; injection H as <-; projs;
      rewrite ?filter_In in I; try (left; tauto).
    rewrite in_map_iff in I.
    repeat (destruct I as [I|I]; [left; auto 12; fail|]).
    destruct I as [I|I]; [|left; tauto]. destruct I as (j0 & E & I0). right. right.
    exists a, j0. repeat split; auto; try congruence. apply in_live. auto 12.
Qed.

Lemma find_client_in a cs c : find_client a cs = Some c -> In c cs /\ c_addr c = a.
Proof. intro H. apply find_some in H. destruct H as [H E]. apply N.eqb_eq in E. auto. Qed.
Lemma find_client_none a cs : find_client a cs = None -> forall c, In c cs -> c_addr c <> a.
Proof. intros H c I E. apply (find_none _ _ H) in I. rewrite E, N.eqb_refl in I. discriminate. Qed.
Lemma find_client_some a cs c : In c cs -> c_addr c = a -> NoDup (map c_addr cs) -> find_client a cs = Some c.
Proof.
  intros I <-. induction cs as [|d cs IH]; [contradiction|]. cbn. intro ND. inversion_clear ND as [|x l Nin ND'].
  destruct I as [->|I]; [now rewrite N.eqb_refl|]. destruct (N.eqb_spec (c_addr d) (c_addr c)) as [E|E]; auto.
  destruct Nin. rewrite E. now apply in_map.
Qed.
Lemma find_client_ex a cs c : In c cs -> c_addr c = a -> find_client a cs <> None.
Proof. intros I E H. exact (find_client_none _ _ H _ I E). Qed.
Lemma bump_addr f a cs : map c_addr (bump f a cs) = map c_addr cs.
Proof. unfold bump. rewrite map_map. apply map_ext. intro c. destruct (N.eqb _ _); reflexivity. Qed.
Lemma bump_conn f a cs : map c_conn (bump f a cs) = map c_conn cs.
Proof. unfold bump. rewrite map_map. apply map_ext. intro c. destruct (N.eqb _ _); reflexivity. Qed.
Lemma in_bump f a cs c : In c (bump f a cs) -> exists d, In d cs /\ c_addr c = c_addr d /\ c_conn c = c_conn d /\
  c_active c = if N.eqb (c_addr d) a then f (c_active d) else c_active d.
Proof.
  unfold bump. rewrite in_map_iff. intros (d & E & I). exists d. destruct (N.eqb_spec (c_addr d) a); subst c; auto.
Qed.
Lemma find_bump f a b cs : find_client b cs <> None -> find_client b (bump f a cs) <> None.
Proof.
  intros H Q. destruct (find_client b cs) as [c|] eqn:E; [|auto]. apply find_client_in in E. destruct E as [I E].
  assert (J : In (c_addr c) (map c_addr (bump f a cs))) by (rewrite bump_addr; now apply in_map).
  apply in_map_iff in J. destruct J as (d & Ed & J). apply (find_client_none _ _ Q _ J). congruence.
Qed.
Lemma phase_app a cl x : phase a (cl ++ [x]) = match phase a cl with Some p => Some p | None => if N.eqb (fst x) a then Some (snd x) else None end.
Proof.
  unfold phase. induction cl as [|[b p] cl IH]; cbn [app find fst].
  - destruct x as [b p]; cbn. destruct (N.eqb b a); reflexivity.
  - destruct (N.eqb b a); [reflexivity|exact IH].
Qed.
Lemma phase_set a b p cl : phase b (set_phase a p cl) = match phase b cl with Some q => Some (if N.eqb b a then p else q) | None => None end.
Proof.
  unfold phase, set_phase. induction cl as [|[c q] cl IH]; [reflexivity|]. cbn [map find fst].
  destruct (N.eqb_spec c a) as [->|E]; cbn [fst find].
  - destruct (N.eqb_spec a b) as [->|F]; [now rewrite N.eqb_refl|exact IH].
  - destruct (N.eqb_spec c b) as [->|F]; [|exact IH]. destruct (N.eqb_spec b a); [contradiction|reflexivity].
Qed.
Lemma phase_filter a b cl : phase b (filter (fun x => negb (N.eqb (fst x) a)) cl) = if N.eqb b a then None else phase b cl.
Proof.
  unfold phase. induction cl as [|[c q] cl IH]; cbn [filter find fst]; [destruct (N.eqb b a); reflexivity|].
  destruct (N.eqb_spec c a) as [->|E]; cbn [negb find fst].
  - destruct (N.eqb_spec b a) as [->|F]; rewrite IH; [reflexivity|].
    destruct (N.eqb_spec a b); [congruence|reflexivity].
  - destruct (N.eqb_spec c b) as [->|F]; [|exact IH]. destruct (N.eqb_spec b a); [contradiction|reflexivity].
Qed.
Lemma filter_addr_nodup a cs : NoDup (map c_addr cs) -> NoDup (map c_addr (filter (fun c => negb (N.eqb (c_addr c) a)) cs)).
Proof.
  induction cs as [|c cs IH]; cbn; [auto|]. intro ND; inversion_clear ND as [|x l Nin ND'].
  destruct (negb _); cbn; auto. constructor; auto. rewrite in_map_iff. intros (d & E & I).
  apply filter_In in I. apply Nin. rewrite <- E. now apply in_map.
Qed.
Lemma filter_conn_nodup f cs : NoDup (map c_conn cs) -> NoDup (map c_conn (filter f cs)).
Proof.
  induction cs as [|c cs IH]; cbn; [auto|]. intro ND; inversion_clear ND as [|x l Nin ND'].
  destruct (f c); cbn; auto. constructor; auto. rewrite in_map_iff. intros (d & E & I).
  apply filter_In in I. apply Nin. rewrite <- E. now apply in_map.
Qed.

Record cinv (s : state) : Prop := mkCinv {
  i_addr : NoDup (map c_addr (clients s));
  i_conn : NoDup (map c_conn (clients s));
  i_hist : forall c, In c (clients s) -> In (c_conn c, c_addr c) (conns s);
  i_cseq : map fst (conns s) = seq 0 (next_conn s);
  i_closing : forall a, phase a (closing s) <> None -> find_client a (clients s) <> None }.

Lemma cinv_old s c : cinv s -> In c (clients s) -> c_conn c < next_conn s.
Proof.
  intros I H. apply (i_hist _ I) in H. apply (in_map fst) in H. cbn in H. rewrite (i_cseq _ I) in H. apply in_seq in H. lia.
Qed.
Lemma cinv_bump s f a s' : cinv s -> clients s' = bump f a (clients s) -> conns s' = conns s -> next_conn s' = next_conn s ->
  closing s' = closing s -> cinv s'.
Proof.
  intros I C1 C2 C3 C4. constructor.
  - rewrite C1, bump_addr. apply I.
  - rewrite C1, bump_conn. apply I.
  - intros c H. rewrite C1 in H. apply in_bump in H. destruct H as (d & H & E1 & E2 & _). rewrite C2, E1, E2. now apply I.
  - rewrite C2, C3. apply I.
  - intros b H. rewrite C1. apply find_bump. apply I. now rewrite <- C4.
Qed.
Lemma cinv_same s s' : cinv s -> clients s' = clients s -> conns s' = conns s -> next_conn s' = next_conn s ->
  (forall a, phase a (closing s') <> None -> phase a (closing s) <> None \/ find_client a (clients s) <> None) -> cinv s'.
Proof.
  intros I C1 C2 C3 C4. constructor; rewrite ?C1, ?C2, ?C3; try apply I.
  intros a H. destruct (C4 a H); [now apply I|auto].
Qed.
Lemma nodup_snoc {A} (l : list A) x : NoDup l -> ~ In x l -> NoDup (l ++ [x]).
Proof.
  intros N I. apply NoDup_rev in N. rewrite <- (rev_involutive (l ++ [x])). apply NoDup_rev. rewrite rev_app_distr. cbn.
  constructor; auto. now rewrite <- in_rev.
Qed.
Lemma step_cinv s e s' : cinv s -> step s e = Some s' -> cinv s'.
Proof.
  intros I H. destruct e; cbn [step] in H.
  - destruct (find_client a (clients s)) eqn:F; [discriminate|]. injection H as <-.
    assert (NF := find_client_none _ _ F). constructor; projs.
    + rewrite map_app. apply nodup_snoc; [apply I|]. rewrite in_map_iff. intros (c & E & J). exact (NF _ J E).
    + rewrite map_app. apply nodup_snoc; [apply I|]. rewrite in_map_iff. intros (c & E & J). apply (cinv_old _ _ I) in J. cbn in E. lia.
    + intros c J. rewrite in_app_iff in *. destruct J as [J|[<-|[]]]; [left; now apply I|right; cbn; auto].
    + rewrite map_app, seq_S, (i_cseq _ I). reflexivity.
    + intros b P. apply (i_closing _ I) in P. destruct (find_client b (clients s)) as [c|] eqn:Fb; [|contradiction].
      apply find_client_in in Fb. apply find_client_ex with c; [apply in_app_iff|]; tauto.
  - destruct (find_client a (clients s)); [|discriminate]. destruct (phase a (closing s)); [discriminate|]. injection H as <-.
    eapply cinv_bump; eauto; reflexivity.
  - stepcases H. apply (cinv_same s); auto.
  - stepcases H. apply (cinv_same s); auto.
  - stepcases H. apply (cinv_same s); auto.
  - stepcases H; apply (cinv_same s); auto.
  - stepcases H; apply (cinv_same s); auto.
  - stepcases H; apply (cinv_same s); auto.
  - destruct (hand s) as [[j r]|]; [|discriminate]. injection H as <-.
    destruct (match r with RAborted => None | _ => match j_user j with Some a => find_client a (clients s) | None => None end end) as [c|] eqn:T.
    + assert (T' : match r with
           | RAborted => None
           | _ => match j_user j with Some a => find_client a (clients s) | None => None end end = Some c) by exact T.
      destruct r; rewrite ?T'; try discriminate; eapply cinv_bump; eauto; reflexivity.
    + destruct r; try rewrite T; apply (cinv_same s); auto.
  - destruct (find_client a (clients s)) as [c|] eqn:F; [|discriminate].
    assert (R : cinv (mkSt (filter (fun c => negb (N.eqb (c_addr c) a)) (clients s)) (filter (fun j => negb (user_is a j)) (waiting s))
                    (pending s) (flight s) (leaving s) (pushing s) (done s) (failed s) (aborted s) (hand s)
                    (filter (fun x => negb (N.eqb (fst x) a)) (closing s)) (next_conn s) (next_job s)
                    (conns s) (born s) (freed s ++ ids (filter (user_is a) (waiting s))) (sent s) (dropped s))).
    { constructor; projs.
      - apply filter_addr_nodup, I.
      - apply filter_conn_nodup, I.
      - intros d J. apply filter_In in J. now apply I.
      - apply I.
      - intros b P. rewrite phase_filter in P. destruct (N.eqb_spec b a) as [E|E]; [congruence|].
        apply (i_closing _ I) in P. destruct (find_client b (clients s)) as [d|] eqn:Fb; [|contradiction].
        apply find_client_in in Fb. apply find_client_ex with d; [apply filter_In|]; try tauto. split; [tauto|].
        destruct (N.eqb_spec (c_addr d) a); [|reflexivity]. destruct Fb; congruence. }
    destruct (phase a (closing s)) as [[|[|[|p]]]|] eqn:P; injection H as <-; auto.
    + apply (cinv_same s); auto. projs. intros b. rewrite phase_set. destruct (phase b (closing s)); left; congruence.
    + apply (cinv_same s); auto. projs. intros b. rewrite phase_set. destruct (phase b (closing s)); left; congruence.
    + apply (cinv_same s); auto. projs. intros b. rewrite phase_app. cbn.
      destruct (phase b (closing s)); [left; congruence|]. destruct (N.eqb_spec a b) as [->|]; [right; congruence|contradiction].
Qed.

Lemma report_target s j r (t : option client) :
  t = match r, j_user j with RAborted, _ | _, None => None | _, Some a => find_client a (clients s) end ->
  forall c, t = Some c -> r <> RAborted /\ j_user j = Some (c_addr c) /\ In c (clients s).
Proof.
  intros -> c H. destruct r; try discriminate; (destruct (j_user j) as [a|]; [|discriminate]);
    destruct (find_client_in _ _ _ H) as [I E]; subst; (split; [discriminate|auto]).
Qed.
Lemma client_back s e s' c' : cinv s -> step s e = Some s' -> In c' (clients s') ->
  (exists c, In c (clients s) /\ c_conn c' = c_conn c /\ c_addr c' = c_addr c /\
     (phase (c_addr c) (closing s) <> None -> phase (c_addr c) (closing s') <> None)) \/
  (c_conn c' = next_conn s /\ exists a, e = Connect a).
Proof.
  intros I H J. destruct e; cbn [step] in H.
  - destruct (find_client a (clients s)) eqn:F; [discriminate|]. injection H as <-. projs.
    apply in_app_or in J. destruct J as [J|[<-|[]]]; [left|right]; eauto 6.
  - destruct (find_client a (clients s)); [|discriminate]. destruct (phase a (closing s)); [discriminate|]. injection H as <-.
    projs. apply in_bump in J. destruct J as (d & J & E1 & E2 & _). left. eauto 6.
  - stepcases H. projs. left; eauto 8.
  - stepcases H. projs. left; eauto 8.
  - stepcases H. projs. left; eauto 8.
  - stepcases H; projs; left; eauto 8.
  - stepcases H; projs; left; eauto 8.
  - stepcases H; projs; left; eauto 8.
  - destruct (hand s) as [[j r]|]; [|discriminate]. injection H as <-. projs.
    match type of J with In _ (match ?t with _ => _ end) => destruct t as [c|] end; [|left; eauto 8].
    apply in_bump in J. destruct J as (d & J & E1 & E2 & _). left. eauto 8.
  - destruct (find_client a (clients s)) as [c|] eqn:F; [|discriminate]. left.
    destruct (phase a (closing s)) as [[|[|[|p]]]|] eqn:P; injection H as <-; projs.
    + apply filter_In in J. destruct J as [J E]. exists c'. repeat split; auto. rewrite phase_filter. destruct (N.eqb (c_addr c') a); [discriminate|auto].
    + exists c'. repeat split; auto. rewrite phase_set. intro Q; destruct (phase (c_addr c') (closing s)); [discriminate|congruence].
    + exists c'. repeat split; auto. rewrite phase_set. intro Q; destruct (phase (c_addr c') (closing s)); [discriminate|congruence].
    + apply filter_In in J. destruct J as [J E]. exists c'. repeat split; auto. rewrite phase_filter. destruct (N.eqb (c_addr c') a); [discriminate|auto].
    + exists c'. repeat split; auto. rewrite phase_app. intro Q; destruct (phase (c_addr c') (closing s)); [discriminate|congruence].
Qed.

Definition sent_id (x : nat * nat * bool) : nat := fst (fst x).
Record jinv (s : state) : Prop := mkJinv {
  i_user : forall j a, In j (live s) -> j_user j = Some a -> In (j_conn j, a) (conns s);
  i_born : forall j, In j (live s) -> In (j_id j, j_conn j) (born s);
  i_bconn : forall id o, In (id, o) (born s) -> o < next_conn s;
  i_own : forall j c, In j (live s) -> In c (clients s) -> c_conn c = j_conn j ->
    j_user j = Some (c_addr c) \/ phase (c_addr c) (closing s) <> None;
  i_freed : forall id o, In (id, o) (born s) -> In id (freed s) -> (exists ok, In (id, o, ok) (sent s)) \/ In id (dropped s) \/
    (forall c, In c (clients s) -> c_conn c = o -> phase (c_addr c) (closing s) <> None) }.

Lemma unhook_id a j : j_id (unhook a j) = j_id j /\ j_conn (unhook a j) = j_conn j /\ (j_user (unhook a j) = j_user j \/ j_user (unhook a j) = None /\ j_user j = Some a).
Proof.
  unfold unhook, user_is. destruct (j_user j) as [b|] eqn:U; [|auto]. destruct (N.eqb_spec b a) as [->|]; cbn; auto.
Qed.
Lemma conns_grow s e s' : step s e = Some s' -> incl (conns s) (conns s') /\ incl (born s) (born s') /\ next_conn s <= next_conn s' /\
  incl (sent s) (sent s') /\ incl (dropped s) (dropped s') /\ incl (freed s) (freed s').
Proof.
  intro H. destruct e; cbn [step] in H; stepcases H; projs; repeat split; try lia;
    try apply incl_refl; try (apply incl_appl, incl_refl);
    repeat match goal with |- incl _ (match ?x with _ => _ end) => destruct x end; try apply incl_refl; try (apply incl_appl, incl_refl).
Qed.
Lemma born_fun s id o o' : idinv s -> In (id, o) (born s) -> In (id, o') (born s) -> o = o'.
Proof.
  intros [_ B] H1 H2. assert (ND : NoDup (map fst (born s))) by (rewrite B; apply seq_NoDup). clear B.
  induction (born s) as [|[i q] l IH]; [contradiction|]. cbn in ND. inversion_clear ND as [|x y Nin ND'].
  destruct H1 as [E1|H1], H2 as [E2|H2]; try congruence; auto.
  - injection E1 as -> ->. destruct Nin. now apply (in_map fst) in H2.
  - injection E2 as -> ->. destruct Nin. now apply (in_map fst) in H1.
Qed.

Lemma freed_step s e s' id : step s e = Some s' -> In id (freed s') -> In id (freed s) \/
  (exists j r, e = Report /\ hand s = Some (j, r) /\ j_id j = id) \/
  (exists j, In j (live s) /\ j_id j = id /\ j_user j = None) \/
  (exists a j, e = Close a /\ In j (live s) /\ j_id j = id /\ j_user j = Some a).
Proof.
  intros H J. 
  assert (K : forall a l, (forall j, In j l -> In j (live s)) -> e = Close a -> In id (freed s ++ ids (filter (user_is a) l)) ->
    In id (freed s) \/ exists a0 j, e = Close a0 /\ In j (live s) /\ j_id j = id /\ j_user j = Some a0).
  { intros a l Hl He Q. apply in_app_or in Q. destruct Q as [Q|Q]; [auto|right].
    unfold ids in Q. apply in_map_iff in Q. destruct Q as (j & E & Q). apply filter_In in Q. destruct Q as [Q U].
    exists a, j. repeat split; auto. unfold user_is in U. destruct (j_user j); [|discriminate]. apply N.eqb_eq in U. congruence. }
  destruct e; cbn [step] in H; try (stepcases H; projs; auto; fail).
  - destruct (take _ (leaving s)) as [[[j0 r] w]|] eqn:T; [|discriminate]. cbn [fst] in H.
    destruct (in_take _ _ _ _ T) as (T1 & _ & T2). cbn in T2. 
    destruct (j_user j0) eqn:U; injection H as <-; projs; auto.
    apply in_app_or in J. destruct J as [J|[J|[]]]; [auto|]. right. right. left. exists j0. repeat split; auto.
    apply in_live. do 3 right. left. apply in_map_iff. now exists (j0, r).
  - destruct (hand s) as [[j r]|] eqn:Hd; [|discriminate]. injection H as <-. projs.
    apply in_app_or in J. destruct J as [J|[J|[]]]; [auto|]. right. left. eauto.
  - destruct (find_client a (clients s)); [|discriminate].
    assert (W : forall j, In j (waiting s) -> In j (live s)) by (intros; apply in_live; tauto).
    assert (Pe : forall j, In j (pending s) -> In j (live s)) by (intros; apply in_live; tauto).
    assert (Do : forall j, In j (done s) -> In j (live s)) by (intros; apply in_live; tauto).
    destruct (phase a (closing s)) as [[|[|[|p]]]|]; injection H as <-; projs; auto;
      match type of J with In id (freed s ++ ids (filter _ ?l)) => destruct (K a l) as [Q|Q]; auto end.
Qed.

Lemma step_jinv s e s' : idinv s -> cinv s -> jinv s -> step s e = Some s' -> jinv s'.
Proof.
  intros D C J H. destruct (conns_grow _ _ _ H) as (G1 & G2 & G3 & G4 & G5 & G6).
  assert (LS := fun j => live_step s e s' j H). assert (CB := fun c => client_back s e s' c C H).
  assert (OLD : forall j, In j (live s) -> j_conn j < next_conn s).
  { intros j L. eapply (i_bconn _ J). apply (i_born _ J); eauto. }
  constructor.
  - intros j a L U. destruct (LS _ L) as [L0|[(b & rd & c & -> & F & ->)|(b & j0 & -> & P & F & L0 & ->)]].
    + apply G1. eapply i_user; eauto.
    + cbn in *. injection U as ->. destruct (find_client_in _ _ _ F) as [Ic Ea]. subst a. apply G1. now apply (i_hist _ C).
    + destruct (unhook_id b j0) as (_ & Ec & [Eu|[Eu _]]); [|congruence]. rewrite Ec. apply G1. eapply i_user; eauto. congruence.
  - intros j L. destruct (LS _ L) as [L0|[(b & rd & c & -> & F & ->)|(b & j0 & -> & P & F & L0 & ->)]].
    + apply G2. eapply i_born; eauto.
    + cbn [j_id j_conn]. cbn [step] in H. rewrite F in H. destruct (phase b (closing s)); [discriminate|]. injection H as <-. projs.
      apply in_app_iff. cbn. auto.
    + destruct (unhook_id b j0) as (-> & -> & _). apply G2. eapply i_born; eauto.
  - intros id o B. destruct (step_next _ _ _ H) as [[_ E]|[_ (a & c & F & _ & E)]]; rewrite E in B.
    + apply (i_bconn _ J) in B. lia.
    + apply in_app_or in B. destruct B as [B|[B|[]]]; [apply (i_bconn _ J) in B; lia|]. injection B as <- <-.
      apply find_client_in in F. assert (Q := cinv_old _ _ C (proj1 F)). lia.
  - intros j c L Ic Ec. 
    destruct (CB _ Ic) as [(c0 & I0 & E1 & E2 & PH)|(E1 & a & ->)].
    + rewrite E2. destruct (LS _ L) as [L0|[(b & rd & c1 & -> & F & ->)|(b & j0 & -> & P & F & L0 & ->)]].
      * destruct (i_own _ J _ c0 L0 I0) as [Q|Q]; [congruence|auto|right; auto].
      * cbn in *. left. destruct (find_client_in _ _ _ F) as [I1 A1]. f_equal. subst b.
        assert (K : forall l x y, NoDup (map c_conn l) -> In x l -> In y l -> c_conn x = c_conn y -> x = y).
        { clear. induction l as [|z l IH]; [contradiction|]. cbn. intros x y ND. inversion_clear ND as [|? ? Nin ND'].
          intros [->|X] [->|Y] E; auto.
          - destruct Nin. rewrite E. now apply in_map.
          - destruct Nin. rewrite <- E. now apply in_map. }
        f_equal. apply (K (clients s)); auto; [apply C|congruence].
      * destruct (unhook_id b j0) as (_ & Ec0 & [Eu|[Eu U0]]).
        -- rewrite Eu. destruct (i_own _ J _ c0 L0 I0) as [Q|Q]; [congruence|auto|right; auto].
        -- right. destruct (i_own _ J _ c0 L0 I0) as [Q|Q]; [congruence| |auto].
           apply PH. assert (b = c_addr c0) by congruence. subst b. rewrite P. discriminate.
    + exfalso. destruct (LS _ L) as [L0|[(b & rd & c1 & Q & _)|(b & j0 & Q & _)]]; try discriminate.
      apply OLD in L0. lia.
  - intros id o B Fr.
    assert (OB : In id (freed s) \/ (exists j, In j (live s) /\ j_id j = id) -> In (id, o) (born s)).
    { intros Q. destruct (step_next _ _ _ H) as [[_ E]|[_ (a & c & F & _ & E)]]; rewrite E in B; auto.
      apply in_app_or in B. destruct B as [B|[B|[]]]; [auto|]. injection B as <- <-.
      assert (Z := proj1 D (next_job s)). rewrite Nat.ltb_irrefl in Z. unfold all_ids in Z. rewrite cnt_app in Z.
      exfalso. destruct Q as [Q|(j & L & E1)].
      - apply cnt_in in Q. lia.
      - apply (in_map j_id) in L. rewrite E1 in L. apply cnt_in in L. unfold ids in Z. lia. }
    destruct (freed_step _ _ _ _ H Fr) as [F0|[(j & r & -> & Hd & Ei)|[(j & L & Ei & U)|(a & j & -> & L & Ei & U)]]].
    + assert (B0 := OB (or_introl F0)). destruct (i_freed _ J _ _ B0 F0) as [Q|[Q|Q]].
      * left. destruct Q as [ok Q]. exists ok. now apply G4.
      * right. left. now apply G5.
      * right. right. intros c Ic Ec. destruct (CB _ Ic) as [(c0 & I0 & E1 & E2 & PH)|(E1 & a & ->)].
        -- rewrite E2. apply PH, Q; congruence.
        -- apply (i_bconn _ J) in B0. lia.
    + assert (L : In j (live s)) by (apply in_live; do 8 right; eauto).
      assert (B0 : In (id, o) (born s)) by (apply OB; eauto).
      assert (Eo : j_conn j = o) by (eapply born_fun; eauto; rewrite <- Ei; now apply (i_born _ J)).
      cbn [step] in H. rewrite Hd in H. injection H as <-. projs. subst id o.
      destruct (find (fun c => c_conn c =? j_conn j) (clients s)) as [c0|] eqn:Fo.
      2:{ right. right. intros c Ic Ec. exfalso.
          assert (Ic' : exists c', In c' (clients s) /\ c_conn c' = c_conn c).
          { destruct (CB c Ic) as [(c1 & X1 & X2 & _)|(_ & a & X)]; [eauto|discriminate]. }
          destruct Ic' as (c' & Ic' & Ec'). apply (find_none _ _ Fo) in Ic'. rewrite Ec', Ec, Nat.eqb_refl in Ic'. discriminate. }
      apply find_some in Fo. destruct Fo as [I0 E0]. apply Nat.eqb_eq in E0.
      assert (KU : forall l x y, NoDup (map c_conn l) -> In x l -> In y l -> c_conn x = c_conn y -> x = y).
      { clear. induction l as [|z l IH]; [contradiction|]. cbn. intros x y ND. inversion_clear ND as [|? ? Nin ND'].
        intros [->|X] [->|Y] E; auto.
        - destruct Nin. rewrite E. now apply in_map.
        - destruct Nin. rewrite <- E. now apply in_map. }
      destruct (i_own _ J _ _ L I0 E0) as [U|U].
      * rewrite U, (find_client_some _ _ _ I0 eq_refl (i_addr _ C)).
        destruct r; rewrite ?E0; [left; exists true|left; exists false|right; left]; apply in_app_iff; cbn; auto.
      * right. right. intros c Ic Ec. destruct (CB _ Ic) as [(c1 & I1 & X1 & X2 & PH)|(_ & a & X)]; [|discriminate].
        rewrite X2. rewrite (KU (clients s) c1 c0); auto; [apply C|congruence].
    + assert (B0 : In (id, o) (born s)) by (apply OB; eauto).
      assert (Eo : j_conn j = o) by (eapply born_fun; eauto; rewrite <- Ei; now apply (i_born _ J)).
      right. right. intros c Ic Ec. destruct (CB _ Ic) as [(c0 & I0 & E1 & E2 & PH)|(E1 & a & ->)].
      * rewrite E2. apply PH. destruct (i_own _ J _ _ L I0) as [Q|Q]; [congruence|congruence|auto].
      * apply OLD in L. lia.
    + assert (B0 : In (id, o) (born s)) by (apply OB; eauto).
      assert (Eo : j_conn j = o) by (eapply born_fun; eauto; rewrite <- Ei; now apply (i_born _ J)).
      right. right. intros c Ic Ec. cbn [step] in H.
      assert (KK : In c (clients s) -> c_addr c = a \/ phase (c_addr c) (closing s) <> None).
      { intro I0. destruct (i_own _ J _ _ L I0) as [Q|Q]; [congruence|left; congruence|auto]. }
      destruct (find_client a (clients s)); [|discriminate].
      destruct (phase a (closing s)) as [[|[|[|p]]]|] eqn:P; injection H as <-; projs.
      * apply filter_In in Ic. destruct Ic as [Ic Ne]. rewrite phase_filter. destruct (N.eqb_spec (c_addr c) a); [discriminate|]. tauto.
      * rewrite phase_set. destruct (KK Ic) as [->|Q]; [rewrite P; discriminate|]. destruct (phase (c_addr c) (closing s)); [discriminate|congruence].
      * rewrite phase_set. destruct (KK Ic) as [->|Q]; [rewrite P; discriminate|]. destruct (phase (c_addr c) (closing s)); [discriminate|congruence].
      * apply filter_In in Ic. destruct Ic as [Ic Ne]. rewrite phase_filter. destruct (N.eqb_spec (c_addr c) a); [discriminate|]. tauto.
      * rewrite phase_app. destruct (KK Ic) as [->|Q]; [rewrite P; cbn; rewrite N.eqb_refl; discriminate|]. destruct (phase (c_addr c) (closing s)); [discriminate|congruence].
Qed.
Lemma invs es s : run init es = Some s -> idinv s /\ cinv s /\ jinv s.
Proof.
  revert es s. apply run_ind_inv.
  - split; [|split].
    + split; [intro x|]; reflexivity.
    + constructor; cbn; try constructor; intros; try contradiction; congruence.
    + constructor; cbn; intros; contradiction.
  - intros s e s' (D & C & J) H. split; [|split].
    + eapply step_idinv; eauto.
    + eapply step_cinv; eauto.
    + eapply step_jinv; eauto.
Qed.

Definition success (r : result) : bool := match r with ROk => true | _ => false end.
Lemma sent_step s e s' : step s e = Some s' -> sent s' = sent s \/
  exists j r c, e = Report /\ hand s = Some (j, r) /\ r <> RAborted /\ j_user j = Some (c_addr c) /\ In c (clients s) /\
    sent s' = sent s ++ [(j_id j, c_conn c, success r)] /\ clients s' = bump dec32 (c_addr c) (clients s) /\ born s' = born s /\ conns s' = conns s /\ next_conn s' = next_conn s /\ next_job s' = next_job s.
Proof.
  intros H. destruct e; cbn [step] in H; try (stepcases H; projs; auto; fail).
  destruct (hand s) as [[j r]|] eqn:Hd; [|discriminate]. injection H as <-. projs.
  match goal with |- context [match ?t with Some c => sent s ++ _ | None => _ end] => destruct t as [c|] eqn:T end; [|auto].
  destruct (report_target s j r _ eq_refl c T) as (R1 & R2 & R3).
  right. exists j, r, c. repeat split; auto.
Qed.
Lemma sent_once s e s' : idinv s -> step s e = Some s' ->
  (forall x, In x (sent s) -> In (sent_id x) (freed s)) /\ NoDup (map sent_id (sent s)) ->
  (forall x, In x (sent s') -> In (sent_id x) (freed s')) /\ NoDup (map sent_id (sent s')).
Proof.
  intros D H [I ND]. assert (D' := step_idinv _ _ _ D H).
  destruct (conns_grow _ _ _ H) as (_ & _ & _ & _ & _ & G).
  destruct (sent_step _ _ _ H) as [E|(j & r & c & -> & Hd & R & U & Ic & E & _)]; rewrite E.
  - split; auto.
  - split.
    + intros x X. apply in_app_or in X. destruct X as [X|[<-|[]]]; [auto|]. unfold sent_id; cbn [fst].
      cbn [step] in H. rewrite Hd in H. injection H as <-. projs. apply in_app_iff. cbn; auto.
    + rewrite map_app. apply nodup_snoc; auto. intro Q. apply in_map_iff in Q. destruct Q as (y & Ey & Y).
      apply I in Y. rewrite Ey in Y. unfold sent_id in Y; cbn [fst] in Y.
      assert (Z := proj1 D (j_id j)). rewrite all_cnt in Z. unfold hand_ids in Z. rewrite Hd, cnt_one in Z. unfold one in Z.
      destruct (Nat.eq_dec (j_id j) (j_id j)); [|contradiction]. apply cnt_in in Y. destruct (_ <? _); lia.
Qed.
Lemma sent_inv es s : run init es = Some s ->
  (idinv s /\ cinv s /\ jinv s) /\ (forall x, In x (sent s) -> In (sent_id x) (freed s)) /\ NoDup (map sent_id (sent s)).
Proof.
  intro H. split; [eapply invs; eauto|].
  assert (G : forall es s, run init es = Some s -> (idinv s /\ cinv s /\ jinv s) /\ ((forall x, In x (sent s) -> In (sent_id x) (freed s)) /\ NoDup (map sent_id (sent s)))).
  { apply run_ind_inv.
    - split; [apply (invs []); reflexivity|]. split; [contradiction|constructor].
    - intros s0 e s1 ((D & C & J) & Q) S. split; [|eapply sent_once; eauto].
      split; [|split]; [eapply step_idinv|eapply step_cinv|eapply step_jinv]; eauto. }
  apply (G _ _ H).
Qed.

(** Receivers, when no address is handed out twice. *)
Definition nborn (k : nat) (s : state) : nat := length (filter (fun x : nat * nat => snd x =? k) (born s)).
Definition nsent (k : nat) (s : state) : nat := length (filter (fun x : nat * nat * bool => snd (fst x) =? k) (sent s)).
Definition big := (4294967296)%N.
Definition rinv (s : state) : Prop :=
  NoDup (map snd (conns s)) ->
  (forall x, In x (sent s) -> In (fst x) (born s)) /\
  ((N.of_nat (next_job s) < big)%N -> forall c, In c (clients s) -> N.to_nat (c_active c) + nsent (c_conn c) s = nborn (c_conn c) s).
Lemma snd_inj (l : list (nat * N)) x y a : NoDup (map snd l) -> In (x, a) l -> In (y, a) l -> x = y.
Proof.
  induction l as [|[z b] l IH]; [contradiction|]. cbn. intro ND. inversion_clear ND as [|? ? Nin ND'].
  intros [E|X] [F|Y]; try congruence; auto.
  - injection E as -> ->. destruct Nin. now apply (in_map snd) in Y.
  - injection F as -> ->. destruct Nin. now apply (in_map snd) in X.
Qed.
Lemma nodup_prefix {A} (l r : list A) : NoDup (l ++ r) -> NoDup l.
Proof. induction l; cbn; intro H; [constructor|]. inversion_clear H. constructor; auto. intro Q. apply H0. apply in_app_iff. auto. Qed.
Lemma conns_step s e s' : step s e = Some s' -> exists l, conns s' = conns s ++ l.
Proof. intro H. destruct e; cbn [step] in H; stepcases H; projs; eauto; exists []; now rewrite app_nil_r. Qed.
Lemma nborn_le k s : idinv s -> nborn k s <= next_job s.
Proof.
  intros [_ B]. unfold nborn. assert (E : length (born s) = next_job s) by (rewrite <- (map_length fst), B; apply seq_length).
  rewrite <- E. clear. induction (born s) as [|x l IH]; cbn; [lia|]. destruct (_ =? _); cbn; lia.
Qed.
Lemma nsent_lt s j r c : (idinv s /\ cinv s /\ jinv s) -> (forall x, In x (sent s) -> In (sent_id x) (freed s)) -> NoDup (map sent_id (sent s)) ->
  (forall x, In x (sent s) -> In (fst x) (born s)) -> hand s = Some (j, r) -> j_conn j = c -> nsent c s < nborn c s.
Proof.
  intros (D & C & J) I1 ND IB Hd <-. unfold nsent, nborn.
  assert (L : In j (live s)) by (apply in_live; do 8 right; eauto).
  set (k := j_conn j).
  assert (E : S (length (filter (fun x : nat * nat * bool => snd (fst x) =? k) (sent s))) =
     length ((j_id j, k) :: map fst (filter (fun x : nat * nat * bool => snd (fst x) =? k) (sent s)))) by (cbn; now rewrite map_length).
  unfold lt. rewrite E. apply NoDup_incl_length.
  - constructor.
    + rewrite in_map_iff. intros (x & Ex & X). apply filter_In in X. destruct X as [X _]. apply I1 in X. unfold sent_id in X. rewrite Ex in X. cbn in X.
      assert (Z := proj1 D (j_id j)). rewrite all_cnt in Z. unfold hand_ids in Z. rewrite Hd, cnt_one in Z. unfold one in Z.
      destruct (Nat.eq_dec (j_id j) (j_id j)); [|contradiction]. apply cnt_in in X. destruct (_ <? _); lia.
    + clear -ND. induction (sent s) as [|x l IH]; [constructor|]. cbn in ND. inversion_clear ND as [|? ? Nin ND'].
      cbn [filter]. destruct (_ =? _); [|auto]. cbn [map]. constructor; auto. rewrite in_map_iff. intros (y & Ey & Y).
      apply filter_In in Y. apply Nin. apply in_map_iff. exists y. split; [|tauto]. unfold sent_id. now rewrite Ey.
  - intros x [<-|X].
    + apply filter_In. split; [now apply (i_born _ J)|]. cbn. apply Nat.eqb_refl.
    + apply in_map_iff in X. destruct X as (y & <- & Y). apply filter_In in Y. apply filter_In. split; [apply IB|]; tauto.
Qed.
Lemma receivers es s : run init es = Some s -> rinv s.
Proof.
  intro R0. assert (G : forall es s, run init es = Some s ->
    ((idinv s /\ cinv s /\ jinv s) /\ (forall x, In x (sent s) -> In (sent_id x) (freed s)) /\ NoDup (map sent_id (sent s))) /\
    (forall x, In x (sent s) -> snd (fst x) < next_conn s) /\ rinv s).
  2: { apply (G _ _ R0). }
  clear R0 es s. induction es as [|e es IH] using rev_ind.
  { intros s H. injection H as <-. split; [apply (sent_inv []); reflexivity|]. split; [contradiction|]. intros _. split; contradiction. }
  intros s' H.
  assert (RA : forall es s0, run s0 (es ++ [e]) = match run s0 es with Some s => step s e | None => None end).
  { clear. induction es as [|x es IH]; intro s0; cbn; [destruct (step s0 e); reflexivity|]. destruct (step s0 x); auto. }
  assert (SI := sent_inv _ _ H). split; [exact SI|].
  rewrite RA in H. destruct (run init es) as [s|]; [|discriminate]. destruct (IH s eq_refl) as (((D & C & J) & I1 & ND) & I2 & Rv).
  destruct (conns_grow _ _ _ H) as (G1 & G2 & G3 & G4 & _ & _). split.
  { intros x X. destruct (sent_step _ _ _ H) as [E|(j & r & c & -> & Hd & R & U & Ic & E & _)]; rewrite E in X.
    - apply I2 in X. lia.
    - apply in_app_or in X. destruct X as [X|[<-|[]]]; [apply I2 in X; lia|]. cbn. apply (cinv_old _ _ C) in Ic. lia. }
  intro NR. destruct (conns_step _ _ _ H) as [lc Elc].
  assert (NR0 : NoDup (map snd (conns s))) by (rewrite Elc, map_app in NR; exact (nodup_prefix _ _ NR)).
  destruct (Rv NR0) as [IB IA].
  assert (RC : forall j r c, hand s = Some (j, r) -> j_user j = Some (c_addr c) -> In c (clients s) -> j_conn j = c_conn c).
  { intros j r c Hd U Ic. assert (L : In j (live s)) by (apply in_live; do 8 right; eauto).
    apply (snd_inj (conns s) _ _ (c_addr c)); auto; [eapply i_user; eauto|now apply (i_hist _ C)]. }
  split.
  { intros x X. destruct (sent_step _ _ _ H) as [E|(j & r & c & -> & Hd & R & U & Ic & E & _ & Eb & _)]; rewrite E in X.
    - apply G2; auto.
    - apply in_app_or in X. destruct X as [X|[<-|[]]]; [apply G2; auto|]. cbn [fst].
      rewrite <- (RC _ _ _ Hd U Ic). rewrite Eb. apply (i_born _ J). apply in_live; do 8 right; eauto. }
  intros Hb c' Ic'.
  destruct (sent_step _ _ _ H) as [E|(j & r & c & -> & Hd & R & U & Ic & E & Ecl & Eb & _ & _ & Enj)].
  - (* no result sent *)
    unfold nsent. rewrite E. fold (nsent (c_conn c') s).
    destruct e; cbn [step] in H.
    + destruct (find_client a (clients s)); [discriminate|]. injection H as <-. projs. unfold nborn. projs. fold (nborn (c_conn c') s).
      apply in_app_or in Ic'. destruct Ic' as [Ic'|[<-|[]]]; [apply IA; auto|]. cbn [c_conn c_active].
      unfold nsent, nborn.
      assert (Z1 : filter (fun x : nat * nat * bool => snd (fst x) =? next_conn s) (sent s) = []).
      { clear -I2. induction (sent s) as [|x l IH]; [reflexivity|]. cbn. assert (Q := I2 x (or_introl eq_refl)).
        destruct (Nat.eqb_spec (snd (fst x)) (next_conn s)); [lia|]. apply IH. intros; apply I2; now right. }
      assert (Z2 : filter (fun x : nat * nat => snd x =? next_conn s) (born s) = []).
      { assert (Q := i_bconn _ J). clear -Q. induction (born s) as [|x l IH]; [reflexivity|]. cbn.
        assert (Q' := Q (fst x) (snd x)). destruct (Nat.eqb_spec (snd x) (next_conn s)).
        - exfalso. assert (snd x < next_conn s); [|lia]. apply Q'. left. now destruct x.
        - apply IH. intros id o X. apply (Q id o). now right. }
      rewrite Z1, Z2. reflexivity.
    + destruct (find_client a (clients s)) as [c|] eqn:F; [|discriminate]. destruct (phase a (closing s)); [discriminate|]. injection H as <-. projs.
      apply in_bump in Ic'. destruct Ic' as (d & I0 & E1 & E2 & E3). rewrite E2, E3.
      assert (Q : N.to_nat (c_active d) + nsent (c_conn d) s = nborn (c_conn d) s) by (apply IA; auto; lia).
      assert (B := nborn_le (c_conn d) s D).
      destruct (find_client_in _ _ _ F) as [I1' A1].
      unfold nborn at 1. projs. rewrite filter_app, app_length. fold (nborn (c_conn d) s). cbn [filter snd].
      destruct (N.eqb_spec (c_addr d) a) as [Ed|Ed].
      * assert (K : c_conn c = c_conn d).
        { apply (snd_inj (conns s) _ _ a); auto; [rewrite <- A1; now apply (i_hist _ C)|rewrite <- Ed; now apply (i_hist _ C)]. }
        rewrite K, Nat.eqb_refl. unfold inc32. unfold big in Hb. rewrite N.mod_small by lia. cbn [length]. lia.
      * destruct (Nat.eqb_spec (c_conn c) (c_conn d)) as [K|K]; [|cbn; lia].
        exfalso. apply Ed. rewrite <- A1.
        assert (U1 := i_hist _ C _ I1'). assert (U2 := i_hist _ C _ I0). rewrite K in U1.
        assert (NF : NoDup (map fst (conns s))) by (rewrite (i_cseq _ C); apply seq_NoDup).
        clear -U1 U2 NF. induction (conns s) as [|[z b] l IHl]; [contradiction|]. cbn in NF. inversion_clear NF as [|? ? Nin ND'].
        destruct U1 as [X|X], U2 as [Y|Y]; try congruence; auto.
        -- injection X as -> ->. destruct Nin. now apply (in_map fst) in Y.
        -- injection Y as -> ->. destruct Nin. now apply (in_map fst) in X.
    + stepcases H. projs. unfold nborn; projs. apply IA; auto.
    + stepcases H. projs. unfold nborn; projs. apply IA; auto.
    + stepcases H. projs. unfold nborn; projs. apply IA; auto.
    + stepcases H; projs; unfold nborn; projs; apply IA; auto.
    + stepcases H; projs; unfold nborn; projs; apply IA; auto.
    + stepcases H; projs; unfold nborn; projs; apply IA; auto.
    + destruct (hand s) as [[j r]|] eqn:Hd; [|discriminate]. injection H as <-. projs. unfold nborn; projs.
      revert E Ic'. match goal with |- context [match ?t with Some c => sent s ++ _ | None => _ end] => destruct t as [c|] eqn:T end; intros E Ic'.
      * exfalso. apply (f_equal (@length _)) in E. rewrite app_length in E. cbn in E. lia.
      * apply IA; auto.
    + stepcases H; projs; unfold nborn; projs; try (apply filter_In in Ic'; destruct Ic' as [Ic' _]); apply IA; auto.
  - (* a result sent *)
    rewrite Ecl in Ic'. apply in_bump in Ic'. destruct Ic' as (d & I0 & E1 & E2 & E3). rewrite E2, E3.
    unfold nborn. rewrite Eb. fold (nborn (c_conn d) s).
    unfold nsent. rewrite E, filter_app, app_length. fold (nsent (c_conn d) s). cbn [filter fst snd].
    assert (Q : N.to_nat (c_active d) + nsent (c_conn d) s = nborn (c_conn d) s) by (apply IA; auto; lia).
    assert (B := nborn_le (c_conn d) s D).
    destruct (N.eqb_spec (c_addr d) (c_addr c)) as [Ed|Ed].
    + assert (K : c_conn c = c_conn d).
      { apply (snd_inj (conns s) _ _ (c_addr c)); auto; [now apply (i_hist _ C)|rewrite <- Ed; now apply (i_hist _ C)]. }
      rewrite K, Nat.eqb_refl. cbn [length].
      assert (LT := nsent_lt s j r (c_conn d) (conj D (conj C J)) I1 ND IB Hd (eq_trans (RC _ _ _ Hd U Ic) K)).
      unfold dec32. unfold big in Hb.
      assert (M : ((c_active d + 4294967295) mod 4294967296 = c_active d - 1)%N).
      { replace (c_active d + 4294967295)%N with ((c_active d - 1) + 1 * 4294967296)%N by lia.
        rewrite N.mod_add by lia. apply N.mod_small. lia. }
      rewrite M. lia.
    + destruct (Nat.eqb_spec (c_conn c) (c_conn d)) as [K|K]; [|cbn; lia].
      exfalso. apply Ed.
      assert (U1 := i_hist _ C _ Ic). assert (U2 := i_hist _ C _ I0). rewrite K in U1.
      assert (NF : NoDup (map fst (conns s))) by (rewrite (i_cseq _ C); apply seq_NoDup).
      clear -U1 U2 NF. induction (conns s) as [|[z b] l IHl]; [contradiction|]. cbn in NF. inversion_clear NF as [|? ? Nin ND'].
      destruct U1 as [X|X], U2 as [Y|Y]; try congruence; auto.
      -- injection X as -> ->. destruct Nin. now apply (in_map fst) in Y.
      -- injection Y as -> ->. destruct Nin. now apply (in_map fst) in X.
Qed.

Lemma run_app es es' s0 : run s0 (es ++ es') = match run s0 es with Some s => run s es' | None => None end.
Proof. revert s0. induction es as [|x es IH]; intro s0; cbn; [reflexivity|]. destruct (step s0 x); auto. Qed.
Lemma no_more_to s e s' k : cinv s -> k < next_conn s -> (forall c, In c (clients s) -> c_conn c <> k) -> step s e = Some s' ->
  k < next_conn s' /\ (forall c, In c (clients s') -> c_conn c <> k) /\ (forall x, In x (sent s') -> snd (fst x) = k -> In x (sent s)).
Proof.
  intros C Lk Nk H. destruct (conns_grow _ _ _ H) as (_ & _ & G & _). split; [lia|]. split.
  - intros c Ic. destruct (client_back _ _ _ _ C H Ic) as [(c0 & I0 & E & _)|(E & _)]; [rewrite E; auto|lia].
  - intros x X E. destruct (sent_step _ _ _ H) as [Es|(j & r & c & _ & _ & _ & _ & Ic & Es & _)]; rewrite Es in X; auto.
    apply in_app_or in X. destruct X as [X|[<-|[]]]; auto. cbn in E. destruct (Nk _ Ic E).
Qed.
Lemma no_more_run es s s' k : cinv s -> k < next_conn s -> (forall c, In c (clients s) -> c_conn c <> k) -> run s es = Some s' ->
  (forall c, In c (clients s') -> c_conn c <> k) /\ (forall x, In x (sent s') -> snd (fst x) = k -> In x (sent s)).
Proof.
  revert s; induction es as [|e es IH]; cbn; intros s C Lk Nk H; [injection H as <-; auto|].
  destruct (step s e) as [s1|] eqn:E; [|discriminate].
  destruct (no_more_to _ _ _ _ C Lk Nk E) as (L1 & N1 & X1). destruct (IH _ (step_cinv _ _ _ C E) L1 N1 H) as [Q1 Q2]. split; auto.
Qed.

(** Results come from the build threads. *)
Definition has_result (s : state) (j : job) (r : result) : Prop :=
  In (j, r) (leaving s) \/ In (j, r) (pushing s) \/ (In j (done s) /\ r = ROk) \/ (In j (failed s) /\ r = RFailed) \/
  (In j (aborted s) /\ r = RAborted) \/ hand s = Some (j, r).
Lemma has_result_step s e s' j r : step s e = Some s' -> has_result s' j r -> has_result s j r \/ e = Leave (j_id j) r.
Proof.
  unfold has_result. intros H Q. destruct e; cbn [step] in H; try (stepcases H; projs; auto; fail).
  - destruct (take _ (flight s)) as [[j0 w]|] eqn:T; [|discriminate]. injection H as <-. projs.
    rewrite in_app_iff in Q. destruct (in_take _ _ _ _ T) as (_ & _ & T3). apply Nat.eqb_eq in T3. cbn in Q.
    destruct Q as [[Q|[Q|[]]]|Q]; auto. injection Q as -> ->. right. congruence.
  - destruct (take _ (leaving s)) as [[[j0 r0] w]|] eqn:T; [|discriminate]. cbn [fst] in H.
    destruct (in_take _ _ _ _ T) as (T1 & T2 & _). left. assert (X := T2 (j, r)).
    destruct (j_user j0); injection H as <-; projs; [rewrite in_app_iff in Q; cbn in Q|]; 
      repeat (destruct Q as [Q|Q]; auto 12); try tauto. injection Q as -> ->. auto.
  - destruct (take _ (pushing s)) as [[[j0 r0] w]|] eqn:T; [|discriminate].
    destruct (in_take _ _ _ _ T) as (T1 & T2 & _). left. assert (X := T2 (j, r)).
    injection H as <-; projs. destruct r0; rewrite in_app_iff in Q; cbn in Q;
      intuition (subst; auto).
  - destruct (hand s) as [h|]; [discriminate|]. left.
    destruct (done s) as [|j0 d] eqn:D; [destruct (failed s) as [|j0 d] eqn:F; [destruct (aborted s) as [|j0 d] eqn:B; [discriminate|]|]|];
      injection H as <-; projs; rewrite ?D, ?F, ?B in *; cbn [In] in *;
      repeat (destruct Q as [Q|Q]; [tauto|]); injection Q as -> ->; auto 12.
  - destruct (hand s) as [[j0 r0]|] eqn:Hd; [|discriminate]. injection H as <-. projs.
    left. intuition discriminate.
  - destruct (find_client a (clients s)); [|discriminate].
    destruct (phase a (closing s)) as [[|[|[|p]]]|]; injection H as <-; projs; rewrite ?filter_In in Q; left; tauto.
Qed.
Lemma results es s : run init es = Some s ->
  (forall j r, has_result s j r -> In (Leave (j_id j) r) es) /\
  (forall x, In x (sent s) -> In (Leave (sent_id x) (if snd x then ROk else RFailed)) es) /\
  (forall id, In id (dropped s) -> In (Leave id RAborted) es).
Proof.
  revert s. induction es as [|e es IH] using rev_ind; intros s' H.
  { injection H as <-. split; [|split]; unfold has_result; cbn; intros; intuition discriminate. }
  rewrite run_app in H. destruct (run init es) as [s|]; [|discriminate]. destruct (IH _ eq_refl) as (A & B & D).
  cbn in H. destruct (step s e) as [s1|] eqn:S; [|discriminate]. injection H as ->.
  assert (A' : forall j r, has_result s' j r -> In (Leave (j_id j) r) (es ++ [e])).
  { intros j r Q. apply in_app_iff. destruct (has_result_step _ _ _ _ _ S Q) as [Q0| ->]; [left; auto|right; now left]. }
  split; [exact A'|]. split.
  - intros x X. destruct (sent_step _ _ _ S) as [E|(j & r & c & -> & Hd & R & U & Ic & E & _)]; rewrite E in X.
    + apply in_app_iff; auto.
    + apply in_app_or in X. apply in_app_iff. destruct X as [X|[<-|[]]]; [left; auto|]. left. unfold sent_id; cbn [fst snd].
      assert (Q : has_result s j r) by (unfold has_result; auto 8). apply A in Q. destruct r; [exact Q|exact Q|contradiction].
  - intros id X. apply in_app_iff. left. destruct e; cbn [step] in S; try (stepcases S; projs; auto; fail).
    destruct (hand s) as [[j r]|] eqn:Hd; [|discriminate]. injection S as <-. projs.
    destruct r; auto. apply in_app_or in X. destruct X as [X|[<-|[]]]; auto. apply A. unfold has_result; auto 8.
Qed.
Definition connect_addrs (es : list event) : list N := flat_map (fun e => match e with Connect a => [a] | _ => [] end) es.
Lemma conns_events es s : run init es = Some s -> map snd (conns s) = connect_addrs es.
Proof.
  revert s. induction es as [|e es IH] using rev_ind; intros s' H; [injection H as <-; reflexivity|].
  rewrite run_app in H. destruct (run init es) as [s|]; [|discriminate]. specialize (IH _ eq_refl).
  cbn in H. destruct (step s e) as [s1|] eqn:S; [|discriminate]. injection H as ->.
  unfold connect_addrs. rewrite flat_map_app. fold (connect_addrs es). rewrite <- IH.
  destruct e; cbn [step] in S; stepcases S; projs; cbn; rewrite ?map_app, ?app_nil_r; reflexivity.
Qed.
