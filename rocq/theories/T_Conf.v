(** C16, C48: noticing configuration changes; imported environment variables.  Model: M_Conf.v, vocabulary: S_Conf.v. *)
From Coq Require Import List Arith Bool NArith Lia.
From Verif Require Import M_Bytes M_Conf S_Conf P_Conf.
Import ListNotations.
Local Open Scope N_scope.

(** While the world stands still, the parse computes the meaning of the configuration (the registry left behind by loading
    an old database makes no difference). *)
Theorem C16_parse_meaning : forall h32 h64 R (p : conf R) w reg, fresh_reg h32 h64 w reg ->
  option_map fst (parse h32 h64 p (fun _ => w) 0 (start reg)) = meaning h32 p w None.
Proof. intros. now apply parse_meaning. Qed.
Print Assumptions C16_parse_meaning.
(** If a later start, in any other world, reuses the database, then parsing the configuration again in that world would
    give the same result: every change that matters has been noticed. *)
Theorem C16_changes_noticed : forall h32 h64 R (p : conf R) w1 w2 reg r s, fresh_reg h32 h64 w1 reg ->
  parse h32 h64 p (fun _ => w1) 0 (start reg) = Some (r, s) -> (st_over s = None \/ st_real s = false) -> changes_show h32 h64 w1 w2 ->
  fst (load h32 h64 w2 (save h32 w1 s) []) = false -> meaning h32 p w2 None = Some r.
Proof. intros h32 h64 R p w1 w2 reg r s. apply reuse_sound. Qed.
Print Assumptions C16_changes_noticed.
(** Item by item: a changed variable, a file with changed contents and stamp, or a file that appeared or disappeared is noticed. *)
Theorem C16_each_change : forall h32 h64 w d reg,
  (exists n h, In (n, h) (db_env d) /\ env_hash h32 (w_env w n) <> h) \/
  (exists f st h, In (f, st, h) (db_used d) /\ w_stamp w f <> st /\ (forall c, w_file w f = Some c -> h64 c <> h)) \/
  (exists f b, In (f, b) (db_fx d) /\ w_exists w f <> b) \/
  (db_over d = None /\ h32 (value (w_env w LIB)) <> db_lib d) ->
  fst (load h32 h64 w d reg) = true.
Proof.
  intros h32 h64 w d reg H. destruct (fst (load h32 h64 w d reg)) eqn:L; auto. exfalso. unfold load in L.
  destruct (load_vars h32 w (db_env d) 0 reg) as [ev reg1] eqn:EV. cbn [fst] in L.
  apply orb_false_iff in L as (L&LX). apply orb_false_iff in L as (L&LL). apply orb_false_iff in L as (LU&LE). subst ev.
  destruct H as [(n&h&I&NE)|[(f&st&h&I&NS&NC)|[(f&b&I&NE)|(EO&NE)]]].
  - apply NE. apply (load_vars_same h32 w (db_env d) 0 reg); [rewrite EV; reflexivity|exact I].
  - assert (used_changed h64 w (f, st, h) = true).
    { unfold used_changed. destruct (N.eqb_spec (w_stamp w f) st); [congruence|]. destruct (w_file w f) as [c|] eqn:E; [|reflexivity]. apply negb_true_iff, N.eqb_neq. now apply NC. }
    assert (existsb (used_changed h64 w) (db_used d) = true) by (apply existsb_exists; eauto). congruence.
  - assert (existsb (fun x => negb (Bool.eqb (w_exists w (fst x)) (snd x))) (db_fx d) = true).
    { apply existsb_exists. exists (f, b). split; [exact I|]. cbn [fst snd]. destruct (w_exists w f), b; try reflexivity; congruence. }
    congruence.
  - rewrite EO in LL. apply negb_false_iff, N.eqb_eq in LL. cbn [get_lib] in LL. congruence.
Qed.
Print Assumptions C16_each_change.
(** Conversely a database is not thrown away when nothing changed. *)
Theorem C16_unchanged_reused : forall h32 h64 R (p : conf R) w reg r s, fresh_reg h32 h64 w reg ->
  parse h32 h64 p (fun _ => w) 0 (start reg) = Some (r, s) -> fst (load h32 h64 w (save h32 w s) []) = false.
Proof.
  intros h32 h64 R p w reg r s F E. destruct (parse_once h32 h64 p (fun _ => w) 0 (start reg) r s (fresh_once h32 h64 w reg F) E) as (O1&O2&O3).
  eapply save_unchanged; eauto.
Qed.
Print Assumptions C16_unchanged_reused.

(** *** Where the claim needs its side conditions *)
Definition bname (n : N) : bytes := [n].
Definition xh (b : bytes) : N := 1 + le_value b.
Definition w_of (lib : option bytes) (stamp : N) (c : bytes) : world :=
  mkW (fun v => if beq v LIB then lib else None) (fun f => if beq f [1] then stamp else 0) (fun f => if beq f [1] then Some c else if beq f [2] then Some [9] else None) (fun _ => false).
Definition root_conf (f : bytes) : conf bytes := Inc f (fun c => Done c).
(** A file edited between being read and being stamped during the parse: the database holds the old contents with the new
    stamp, and the change is never noticed although every edit changes stamp and hash. *)
Theorem C16_edit_during_parse_refuted : exists h32 h64 (p : conf bytes) (ws : nat -> world) w2 r s,
  changes_show h32 h64 (ws O) w2 /\ ws 1%nat = w2 /\
  parse h32 h64 p ws 0 (start []) = Some (r, s) /\ fst (load h32 h64 w2 (save h32 w2 s) []) = false /\ meaning h32 p w2 None <> Some r.
Proof.
  exists xh, xh, (root_conf [1]), (fun t => match t with O => w_of None 5 [10] | _ => w_of None 6 [11] end), (w_of None 6 [11]), [10]. eexists.
  split; [|split; [reflexivity|split; [reflexivity|split; [reflexivity|discriminate]]]].
  split; [cbn [w_of w_env]; reflexivity|]. split; [reflexivity|]. split.
  - intros f. cbn [w_of w_stamp w_file]. destruct (beq f [1]); [discriminate|reflexivity].
  - intros f c1 c2. cbn [w_of w_file]. destruct (beq f [1]); [intros E1 E2; injection E1 as <-; injection E2 as <-; discriminate|]. destruct (beq f [2]); congruence.
Qed.
Print Assumptions C16_edit_during_parse_refuted.
(** LIB read by a linker target before Settings replaces the environment: later changes of LIB are not noticed. *)
Theorem C16_lib_before_settings_refuted : exists h32 h64 (p : conf bytes) w1 w2 r s,
  changes_show h32 h64 w1 w2 /\ parse h32 h64 p (fun _ => w1) 0 (start []) = Some (r, s) /\
  fst (load h32 h64 w2 (save h32 w1 s) []) = false /\ meaning h32 p w2 None <> Some r.
Proof.
  exists xh, xh, (Lib (fun x => SetEnv [7] [8] (Done x))), (w_of (Some [1]) 5 [10]), (w_of (Some [2]) 5 [10]), [1]. eexists.
  split; [|split; [reflexivity|split; [reflexivity|discriminate]]].
  split; [|split; [discriminate|split]].
  - intros v. cbn [w_of w_env]. destruct (beq v LIB); [discriminate|reflexivity].
  - reflexivity.
  - intros f c1 c2. cbn [w_of w_file]. congruence.
Qed.
Print Assumptions C16_lib_before_settings_refuted.
(** Asking for another root configuration file with the same database: the database is reused. *)
Theorem C16_other_root_refuted : exists h32 h64 f1 f2 w r s,
  parse h32 h64 (root_conf f1) (fun _ => w) 0 (start []) = Some (r, s) /\
  fst (load h32 h64 w (save h32 w s) []) = false /\ meaning h32 (root_conf f2) w None <> Some r.
Proof. exists xh, xh, [1], [2], (w_of None 5 [10]), [10]. eexists. split; [reflexivity|]. split; [reflexivity|discriminate]. Qed.
Print Assumptions C16_other_root_refuted.

(** A configuration using every kind of observation. *)
Definition ex_conf : conf (bytes * bool * bool * bytes) :=
  Inc [1] (fun c => Imp [65] (fun a => IfEnv [66] (fun b => IfFile c (fun e => Inc [1] (fun _ => Lib (fun l => Done (a, b, e, l))))))).
Definition ex_w (a b : option bytes) (e : bool) (stamp : N) : world :=
  mkW (fun v => if beq v [65] then a else if beq v [66] then b else None) (fun f => stamp) (fun f => if beq f [1] then Some [3] else None) (fun _ => e).
Example C16_case : exists s, parse xh xh ex_conf (fun _ => ex_w (Some [7]) None true 5) 0 (start []) = Some (([7], false, true, []), s) /\
  fst (load xh xh (ex_w (Some [7]) None true 6) (save xh (ex_w (Some [7]) None true 5) s) []) = false /\
  fst (load xh xh (ex_w (Some [8]) None true 5) (save xh (ex_w (Some [7]) None true 5) s) []) = true /\
  fst (load xh xh (ex_w None None true 5) (save xh (ex_w (Some [7]) None true 5) s) []) = true /\
  fst (load xh xh (ex_w (Some [7]) (Some []) true 5) (save xh (ex_w (Some [7]) None true 5) s) []) = true /\
  fst (load xh xh (ex_w (Some [7]) None false 5) (save xh (ex_w (Some [7]) None true 5) s) []) = true.
Proof. eexists. split; [reflexivity|]. repeat split; reflexivity. Qed.
Example C16_case_hyp : changes_show xh xh (ex_w (Some [7]) None true 5) (ex_w (Some [7]) None true 6) /\ fresh_reg xh xh (ex_w (Some [7]) None true 5) [].
Proof.
  split; [|now left]. split; [reflexivity|]. split; [reflexivity|]. split; [discriminate|]. intros f c1 c2. cbn [ex_w w_file]. congruence.
Qed.

(** Each variable, existence test and file is recorded once, whatever the history of the world during the parse. *)
Theorem C48_recorded_once : forall h32 h64 R (p : conf R) ws w0 reg r s, fresh_reg h32 h64 w0 reg ->
  parse h32 h64 p ws 0 (start reg) = Some (r, s) ->
  NoDup (map fst (st_env s)) /\ NoDup (map fst (st_fx s)) /\ NoDup (map fst (st_used s)).
Proof. intros h32 h64 R p ws w0 reg r s F E. exact (parse_once h32 h64 p ws 0 (start reg) r s (fresh_once h32 h64 w0 reg F) E). Qed.
Print Assumptions C48_recorded_once.

Lemma logged_agree h32 h64 R (p : conf R) : forall ws t s tr r tr' s', 
  (forall v x, In (v, x) tr -> assoc (st_env s) v = Some (h32 x)) ->
  parse h32 h64 (logged p tr) ws t s = Some ((r, tr'), s') ->
  forall v x, In (v, x) tr' -> assoc (st_env s') v = Some (h32 x).
Proof.
  induction p as [r0| |f k IH|v k IH|v k IH|f k IH|k IH|e l p IH]; intros ws t s tr r tr' s' T E; cbn [logged parse] in E.
  - injection E as _ <- <-. exact T.
  - discriminate.
  - destruct (assoc (st_used s) f) as [[[c st] h]|]; [eapply IH; eauto|]. destruct (w_file (ws t) f) as [c|]; [|discriminate]. eapply IH; [|exact E]. exact T.
  - destruct (import_var h32 (st_env s) (w_env (ws t) v) v false) as [[[|] h] reg] eqn:EI; [|discriminate]. eapply IH; [|exact E]. cbn [st_env].
    unfold import_var in EI. destruct (w_env (ws t) v) as [y|]; [|discriminate]. cbn [ehash] in EI. cbn [value].
    destruct (assoc (st_env s) v) as [h0|] eqn:A.
    + injection EI as Q _ <-. apply N.eqb_eq in Q. subst h0. intros u x I. apply in_app_iff in I as [I|[I|[]]]; [auto|]. injection I as <- <-. exact A.
    + injection EI as _ <-. intros u x I. apply in_app_iff in I as [I|[I|[]]]; [apply assoc_app; auto|]. injection I as <- <-. rewrite assoc_app2 by auto. apply assoc_one.
  - destruct (import_var h32 (st_env s) (w_env (ws t) v) v true) as [[b h] reg] eqn:EI. eapply IH; [|exact E]. cbn [st_env]. intros u x I. specialize (T u x I).
    unfold import_var in EI. destruct (w_env (ws t) v); destruct (assoc (st_env s) v) eqn:A; injection EI as _ _ <-; auto; now apply assoc_app.
  - destruct (check_file (st_fx s) (w_exists (ws t) f) f) as [b fx]. eapply IH; [|exact E]. exact T.
  - eapply IH; [|exact E]. exact T.
  - eapply IH; [|exact E]. exact T.
Qed.
(** If a parse succeeds, in any history, every #import of a variable delivered a value with the one hash that was recorded
    for the variable; so two imports of it delivered equal values unless the hashes collide. *)
Theorem C48_imports_agree : forall h32 h64 R (p : conf R) ws reg r tr s,
  parse h32 h64 (logged p []) ws 0 (start reg) = Some ((r, tr), s) ->
  (forall v x, In (v, x) tr -> In (v, h32 x) (st_env s)) /\
  (forall v x y, In (v, x) tr -> In (v, y) tr -> (h32 x = h32 y -> x = y) -> x = y).
Proof.
  intros h32 h64 R p ws reg r tr s E. assert (H := logged_agree h32 h64 R p ws 0 (start reg) [] r tr s ltac:(intros v x []) E). split.
  - intros v x I. apply assoc_In. auto.
  - intros v x y I J C. apply C. pose proof (H v x I). pose proof (H v y J). congruence.
Qed.
Print Assumptions C48_imports_agree.
(** The same is not true of #if exists(..): its failure is ignored, so a parse can go on although a variable it imported
    has gone. *)
Theorem C48_exists_not_checked_refuted : exists h32 h64 (p : conf (bytes * bool)) (ws : nat -> world) x s,
  p = Imp [65] (fun a => IfEnv [65] (fun b => Done (a, b))) /\ parse h32 h64 p ws 0 (start []) = Some ((x, false), s) /\ h32 x <> 0.
Proof.
  exists xh, xh, (Imp [65] (fun a => IfEnv [65] (fun b => Done (a, b)))), (fun t => ex_w (match t with O => Some [7] | _ => None end) None true 5), [7]. eexists.
  split; [reflexivity|]. split; [reflexivity|discriminate].
Qed.
Print Assumptions C48_exists_not_checked_refuted.
(** a parse importing twice: succeeds when the value stays, fails when it changes *)
Example C48_case : let p := logged (Imp [65] (fun a => Imp [65] (fun b => Done tt))) [] in
  option_map fst (parse xh xh p (fun _ => ex_w (Some [7]) None true 5) 0 (start [])) = Some (tt, [([65], [7]); ([65], [7])]) /\
  parse xh xh p (fun t => ex_w (match t with O => Some [7] | _ => Some [8] end) None true 5) 0 (start []) = None.
Proof. split; reflexivity. Qed.
