(** C55: what is kept of the last builds when the BFF has changed. *)
From Coq Require Import String List Arith NArith Bool Ascii Lia.
From Verif Require Import M_Path M_Names M_Migrate S_Migrate P_Migrate P_Migrate2 P_Migrate3 P_Migrate4 P_Migrate5 P_MigrateCase.
Import ListNotations.
Open Scope nat_scope.

(** The migration ends, and its result does not depend on how long one waits. *)
Theorem C55_ends : forall R init old new, prepares R old init ->
  exists f, forall f', f <= f' -> migrate f' init old new <> NoFuel /\ migrate f' init old new = migrate f init old new.
Proof. intros R init old new H. exact (migrate_ends R init old H new). Qed.
Print Assumptions C55_ends.

(** Every target of the new graph has no recorded build, and will be built, or it is a target of the old graph with the same
    settings and the same dependencies, which themselves are unchanged, and all that was recorded of its last build. *)
Theorem C55_sound : forall R init old new fuel g', caseless R -> prepares R old init -> ordered_dyn R old -> ordered R new ->
  (forall i n, nth_error new i = Some n -> fresh n) ->
  migrate fuel init old new = Done g' ->
  forall i n, nth_error g' i = Some n -> fresh n \/ exists h o, nth_error old h = Some o /\ carried old g' o n.
Proof. intros R init old new fuel g' HR Hi Hod Ho Hf H. exact (proj2 (proj2 (migrate_sound R HR init old Hi Hod fuel new g' H Ho Hf))). Qed.
Print Assumptions C55_sound.

(** The graph read from the BFF is kept: its targets have the names, types, settings and dependencies they had. *)
Theorem C55_graph_kept : forall R init old new fuel g', caseless R -> prepares R old init -> ordered_dyn R old -> ordered R new ->
  (forall i n, nth_error new i = Some n -> fresh n) ->
  migrate fuel init old new = Done g' ->
  forall i n, nth_error new i = Some n -> exists n', nth_error g' i = Some n' /\
    name n' = name n /\ type n' = type n /\ pre n' = pre n /\ map to (stat n') = map to (stat n) /\
    (forall x, agree_fields x (props n') -> agree_fields x (props n)).
Proof.
  intros R init old new fuel g' HR Hi Hod Ho Hf H i n Hn.
  destruct (proj1 (proj2 (migrate_sound R HR init old Hi Hod fuel new g' H Ho Hf)) i n Hn) as (n' & Hn' & [K1 K2 K3 K4 K5]).
  exists n'. auto 8.
Qed.
Print Assumptions C55_graph_kept.

(** A target whose type, settings or dependencies changed has no recorded build: it will be built. *)
Theorem C55_changed : forall R init old new fuel g', caseless R -> prepares R old init -> ordered_dyn R old -> ordered R new ->
  (forall i n, nth_error new i = Some n -> fresh n) -> unique old ->
  migrate fuel init old new = Done g' ->
  forall i n h o, nth_error new i = Some n -> nth_error old h = Some o -> equals_i (name n) (name o) = true ->
    ~ (type n = type o /\ agree_fields (props o) (props n) /\
       Forall2 (same_target old new) (pre n) (pre o) /\ Forall2 (same_target old new) (stat n) (stat o)) ->
    exists n', nth_error g' i = Some n' /\ fresh n'.
Proof.
  intros R init old new fuel g' HR Hi Hod Ho Hf Hu H i n h o Hn Hh En Hc.
  destruct (migrate_sound R HR init old Hi Hod fuel new g' H Ho Hf) as (_ & K & S).
  destruct (K i n Hn) as (n' & Hn' & [K1 K2 K3 K4 K5]). exists n'. split; [exact Hn'|].
  destruct (S i n' Hn') as [F|(h2 & o2 & Ho2 & C)]; [exact F|]. exfalso. apply Hc. destruct C as [C1 C2 C3 _ C5 C6 _ _ _].
  assert (E : o2 = o).
  { rewrite K1 in C1. assert (Q : equals_i (name o2) (name o) = true) by (rewrite <- En; symmetry; now apply equals_i_cong).
    pose proof (Hu _ _ _ _ Ho2 Hh Q) as <-. congruence. }
  subst o2. split; [congruence|]. split; [now apply K5|].
  assert (T : forall l l', (forall d, In d l -> In d (pre n ++ stat n)) -> Forall2 (same_target old g') l l' -> Forall2 (same_target old new) l l').
  { intros l l' Hl F. eapply Forall2_weaken; [|exact F]. intros a b Ha (m' & m & H1 & H2 & H3 & H4).
    destruct (Ho i n Hn a (Hl a Ha)) as (m0 & Hm0 & _). destruct (K _ _ Hm0) as (m1 & Hm1 & [Q1 Q2 _ _ _]). rewrite H1 in Hm1. injection Hm1 as <-.
    exists m0, m. repeat split; congruence. }
  assert (W : forall a b, same_state old g' a b -> same_target old g' a b).
  { intros a b (m' & m & H1 & H2 & H3 & H4 & _). exists m', m. auto. }
  rewrite K3 in C5. split.
  - apply T; [intros d Hd; rewrite in_app_iff; now left|]. eapply Forall2_weaken; [|exact C5]. intros a b _. apply W.
  - apply T; [intros d Hd; rewrite in_app_iff; now right|]. apply (target_to old g' (stat n')); [exact K4|].
    eapply Forall2_weaken; [|exact C6]. intros a b _ [Q _]. now apply W.
Qed.
Print Assumptions C55_changed.

(** A target with all that was recorded is out of date just when it would have been with the old BFF: whatever the states of its
    dependencies are at that moment.  (Whether a dependency known before the build counts only for the order depends on the types of the two
    targets, LinkerNode.cpp 1557-1600, so this flag is the same.) *)
Theorem C55_same_decision : forall old g o n now now', carried old g o n ->
  map weak (stat n) = map weak (stat o) ->
  (forall d' d, In (d', d) (combine (stat n ++ dyn n) (stat o ++ dyn o)) -> now' (to d') = now (to d)) ->
  (stale now' (stat n) <-> stale now (stat o)) /\ (stale now' (dyn n) <-> stale now (dyn o)).
Proof.
  intros old g o n now now' [_ _ _ _ _ C6 C7 _ _] Hw Hnow.
  assert (G : forall l l', Forall2 (fun d' d => now' (to d') = now (to d) /\ seen d' = seen d /\ weak d' = weak d) l l' -> (stale now' l <-> stale now l')).
  { intros l l' F. induction F as [|a b l l' (H1 & H2 & H3) F IH].
    - split; intros (d & [] & _).
    - split; intros (d & [<-|Hd] & Hq).
      + exists b. split; [now left|]. now rewrite <- H1, <- H2, <- H3.
      + destruct (proj1 IH) as (e & He & Hqe); [now exists d|]. exists e. split; [now right|exact Hqe].
      + exists a. split; [now left|]. now rewrite H1, H2, H3.
      + destruct (proj2 IH) as (e & He & Hqe); [now exists d|]. exists e. split; [now right|exact Hqe]. }
  assert (Len : length (stat n) = length (stat o)) by (clear -C6; induction C6; cbn; congruence).
  assert (Cb : forall (A : Type) (l1 l2 m1 m2 : list A), length l1 = length m1 -> combine (l1 ++ l2) (m1 ++ m2) = combine l1 m1 ++ combine l2 m2).
  { intros A l1. induction l1 as [|x l1 IH]; intros l2 [|y m1] m2 E; try discriminate E; [reflexivity|]. cbn. f_equal. apply IH. now injection E. }
  rewrite (Cb _ _ _ _ _ Len) in Hnow.
  split; apply G.
  - assert (Hn1 : forall d' d, In (d', d) (combine (stat n) (stat o)) -> now' (to d') = now (to d)) by (intros d' d Hd; apply Hnow; rewrite in_app_iff; now left).
    clear Hnow C7 Len. revert Hw Hn1. induction C6 as [|a b l l' [_ H] F IH]; intros Hw Hn1; constructor.
    + cbn in Hw. injection Hw as Hw _. split; [apply Hn1; now left|auto].
    + cbn in Hw. injection Hw as _ Hw. apply IH; [exact Hw|]. intros d' d Hd. apply Hn1. now right.
  - assert (Hn1 : forall d' d, In (d', d) (combine (dyn n) (dyn o)) -> now' (to d') = now (to d)) by (intros d' d Hd; apply Hnow; rewrite in_app_iff; now right).
    clear Hnow C6 Len Hw. revert Hn1. induction C7 as [|a b l l' [_ H] F IH]; intros Hn1; constructor.
    + split; [apply Hn1; now left|exact H].
    + apply IH. intros d' d Hd. apply Hn1. now right.
Qed.
Print Assumptions C55_same_decision.

(** If the BFF still defines its targets as before, everything recorded is kept: no target will be built because of the migration.
    The targets found by the last build (objects of a list) are there again. *)
Theorem C55_unchanged : forall R init old new, caseless R -> prepares R old init -> ordered_dyn R old -> ordered R new ->
  (forall i n, nth_error new i = Some n -> fresh n) -> unique old -> files_bare old -> recreates old init ->
  unchanged old new ->
  exists f g', (forall f', f <= f' -> migrate f' init old new = Done g') /\
    forall i n, nth_error g' i = Some n -> exists h o, nth_error old h = Some o /\ name n = name o /\ stamp n = stamp o /\
      (type n = file_type \/ carried old g' o n \/ (fresh n /\ fresh o)).
Proof. intros R init old new HR Hi Hod Ho Hf Hu Hb Hr Hun. exact (migrate_unchanged R HR init old Hi Hod Hu Hb Hr new Ho Hf Hun). Qed.
Print Assumptions C55_unchanged.

(** A compiler, an object list and its object; the BFF is as before: all stamps are kept, and the object, its source and its
    header are in the new graph.  With another option for the list it has to be built. *)
Example C55_case :
  (caseless R_case /\ prepares R_case old_case init_case /\ ordered_dyn R_case old_case /\ ordered R_case new_case /\
   (forall i n, nth_error new_case i = Some n -> fresh n) /\ unique old_case /\ files_bare old_case /\ recreates old_case init_case /\
   unchanged old_case new_case) /\
  (exists g', migrate 5 init_case old_case new_case = Done g' /\ map name g' = [nc; nl; no; na; nh] /\ map stamp g' = [0; 9; 55; 0; 0]%N) /\
  (exists g', migrate 5 init_case old_case [file nc; Node nl 2%N (FCons false (PStr na) FNil) [] [Dep 0 0%N false] [] 0%N 0%N] = Done g' /\
     map name g' = [nc; nl] /\ map stamp g' = [0; 0]%N).
Proof.
  split.
  - split; [exact caseless_case|]. split; [exact prepares_case|]. split; [exact ordered_dyn_case|]. split; [exact ordered_case|].
    split; [exact fresh_case|]. split; [exact unique_case|]. split; [exact files_case|]. split; [exact recreates_case|exact unchanged_case].
  - split; (eexists; split; [vm_compute; reflexivity|]); vm_compute; auto.
Qed.
