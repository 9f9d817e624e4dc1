From Coq Require Import List Arith Bool Ascii String NArith Lia.
From Verif Require Import M_Path S_Path P_Path.
Import ListNotations.

Section P.
Context (p : plat) (WP : p = posix \/ p = win).

Lemma back_len rd low : List.length (back p rd low) <= List.length rd.
Proof. induction rd as [|c r IH]; cbn [back]; [destruct (_ <? _); auto|]. destruct (low <? _); auto. destruct (Ascii.eqb c (native p)); cbn; lia. Qed.

Lemma skip_cons_len c r : is_slash p c = true -> List.length (skip_slashes p (c :: r)) <= List.length r.
Proof. intros H. cbn. rewrite H. apply skip_len. Qed.

Lemma nonul_tl (s : str) : nonul s -> nonul (tl s).
Proof. intros H HI. apply H. destruct s; [destruct HI|now right]. Qed.
Lemma nonul_skip s : nonul s -> nonul (skip_slashes p s).
Proof. intros H HI. apply H. now apply (skip_in p). Qed.

(* total buffer [n+1]; [n] is the length set before the loop *)
Lemma loop_cap n : forall f full src rd low last,
  nonul src -> (src = [] \/ List.length rd + List.length src <= n) ->
  clean_loop p (n + 1) f full src rd low last = loop0 p f full src rd low last /\
  (forall out, loop0 p f full src rd low last = Some out -> src <> [] -> List.length out <= n + 1 /\ (full = true -> List.length out <= n)).
Proof.
  induction f as [|f IH]; intros full src rd low last NZ HB; [split; [reflexivity|discriminate]|].
  destruct src as [|c r]; [split; [reflexivity|congruence]|]. destruct HB as [HB|HB]; [discriminate|].
  assert (NZr : nonul r) by (intros H; apply NZ; now right).
  cbn [List.length] in HB. cbn [clean_loop loop0].
  assert (LT : List.length rd <? n + 1 = true) by (apply Nat.ltb_lt; lia). rewrite LT.
  (* generic use of IH *)
  assert (G : forall src' rd' low' last', nonul src' -> (src' = [] /\ List.length rd' <= n + 1 /\ (full = true -> List.length rd' <= n)
                 \/ List.length rd' + List.length src' <= n) ->
     clean_loop p (n + 1) f full src' rd' low' last' = loop0 p f full src' rd' low' last' /\
     (forall out, loop0 p f full src' rd' low' last' = Some out -> List.length out <= n + 1 /\ (full = true -> List.length out <= n))).
  { intros src' rd' low' last' Z HH. destruct (IH full src' rd' low' last' Z) as [I1 I2]; [intuition|].
    split; auto. intros out Ho. destruct src' as [|x y]; [|apply I2; auto; discriminate].
    destruct f; [discriminate|]. cbn [loop0] in Ho. injection Ho as <-.
    destruct HH as [(_&A&B)|A]; [auto|]. cbn in A. split; [lia|intros; lia]. }
  destruct (is_slash p c) eqn:SC.
  { destruct (G (skip_slashes p (c :: r)) (native p :: rd) low (native p)) as [G1 G2].
    - now apply nonul_skip.
    - right. pose proof (skip_cons_len c r SC). cbn [List.length]. lia.
    - split; auto. }
  destruct (G r (c :: rd) low c NZr) as [W1 W2]; [right; cbn [List.length]; lia|].
  destruct (Ascii.eqb c dot && Ascii.eqb last (native p)); [|split; auto].
  destruct (slash_or_nul p (peek r)) eqn:S1.
  { destruct (G (skip_slashes p r) rd low last) as [G1 G2]; [now apply nonul_skip| |split; auto].
    right. pose proof (skip_len p r). lia. }
  destruct (Ascii.eqb (peek r) dot && slash_or_nul p (peek (tl r))) eqn:S2; [|split; auto].
  apply andb_true_iff in S2. destruct S2 as [S2 S3]. apply Ascii.eqb_eq in S2.
  destruct r as [|x r']; [discriminate|]. cbn [peek tl List.length] in *.
  assert (NZ' : nonul (skip_slashes p r')) by (apply nonul_skip; intros H; apply NZr; now right).
  destruct (low <? List.length rd) eqn:LW.
  { destruct (G (skip_slashes p r') (back p (tl rd) low) low last) as [G1 G2]; [exact NZ'| |split; auto].
    right. pose proof (skip_len p r'). pose proof (back_len (tl rd) low). destruct rd; cbn [tl List.length] in *; lia. }
  destruct full; cbn [negb].
  { destruct (G (skip_slashes p r') rd low last) as [G1 G2]; [exact NZ'| |split; auto].
    right. pose proof (skip_len p r'). lia. }
  assert (LT2 : List.length rd + 2 <? n + 1 = true) by (apply Nat.ltb_lt; lia). rewrite LT2.
  destruct (G (skip_slashes p r') (native p :: dot :: dot :: rd) (List.length (native p :: dot :: dot :: rd)) last) as [G1 G2]; [exact NZ'| |split; auto].
  destruct r' as [|y r''].
  - left. split; auto. cbn [List.length]. split; [lia|discriminate].
  - right. cbn [peek] in S3. unfold slash_or_nul in S3. apply orb_true_iff in S3. destruct S3 as [S3|S3].
    + pose proof (skip_cons_len y r'' S3). cbn [List.length] in *. lia.
    + apply Ascii.eqb_eq in S3. subst y. exfalso. apply NZr. right. now left.
Qed.

(** ** decomposition of clean paths *)
Lemma comps_noslash s : Forall (noslash p) (components p s).
Proof.
  induction s as [|c r IH]; cbn.
  - constructor; auto. intros x [].
  - fold (is_slash p c). destruct (is_slash p c) eqn:E.
    + constructor; auto. intros x [].
    + destruct (components p r) as [|h t] eqn:Q; [now apply comp_nonempty in Q|].
      inversion IH; subst. constructor; auto. intros x [<-|Hx]; auto.
Qed.

Fixpoint join (cs : list str) : str :=
  match cs with [] => [] | [c] => c | c :: r => c ++ native p :: join r end.
Lemma join_comps s : ~ In (other p) s -> join (components p s) = s.
Proof.
  induction s as [|c r IH]; intros H; auto. cbn [components]. fold (is_slash p c).
  assert (Hr : ~ In (other p) r) by (intros Q; apply H; now right). specialize (IH Hr).
  destruct (is_slash p c) eqn:E.
  - apply is_slash_iff in E. destruct E as [->|E]; [|exfalso; apply H; now left].
    pose proof (comp_nonempty p r). destruct (components p r) as [|h t]; [congruence|].
    cbn [join app]. cbn [join] in IH. now rewrite IH.
  - pose proof (comp_nonempty p r). destruct (components p r) as [|h t]; [congruence|].
    cbn [join] in *. destruct t as [|h' t']; cbn [app]; now rewrite IH.
Qed.
Lemma join_app dirs l : join (dirs ++ [l]) = render p dirs ++ l.
Proof.
  induction dirs as [|d dirs IH]; auto. cbn [app].
  change (render p (d :: dirs)) with (render p ([d] ++ dirs)). rewrite render_app, render_one.
  destruct (dirs ++ [l]) as [|h t] eqn:E; [destruct dirs; discriminate|].
  cbn [join]. cbn [join] in IH. rewrite IH. now rewrite <- !app_assoc.
Qed.

Lemma join_nil_cons l : l <> [] -> join ([] :: l) = native p :: join l.
Proof. destruct l; [congruence|reflexivity]. Qed.

Lemma comps_render st part : Forall (noslash p) st -> noslash p part ->
  components p (render p st ++ part) = st ++ [part].
Proof.
  intros F N. induction F as [|c st Hc F IH]; [now apply comp_noslash|].
  change (c :: st) with ([c] ++ st). rewrite render_app, render_one, <- !app_assoc. cbn [app].
  rewrite comp_app; auto; [now rewrite IH|]. apply slash_facts; auto.
Qed.

Lemma good_noslash st : Forall (good p) st -> Forall (noslash p) st.
Proof. apply Forall_impl. intros c H. apply H. Qed.
Lemma good_nonul_render st part : Forall (good p) st -> nonul part -> nonul (render p st ++ part).
Proof.
  intros F N. induction F as [|c st Hc F IH]; auto.
  change (c :: st) with ([c] ++ st). rewrite render_app, render_one, <- !app_assoc. intros H.
  apply in_app_iff in H. destruct H as [H|[H|H]]; [apply Hc in H; auto| |now apply IH].
  pose proof (slash_facts p WP) as (_&_&_&_&_&_&Q&_). congruence.
Qed.

Lemma other_not_in st part : Forall (good p) st -> (part = [] \/ good p part) -> ~ In (other p) (render p st ++ part).
Proof.
  intros F G. assert (NP : noslash p part) by (destruct G as [->|G]; [intros x []|apply G]).
  pose proof (slash_facts p WP) as (_&_&NE&_&SO&_).
  induction F as [|c st Hc F IH]; [intros H; apply NP in H; congruence|].
  change (c :: st) with ([c] ++ st). rewrite render_app, render_one, <- !app_assoc. intros H.
  apply in_app_iff in H. destruct H as [H|[H|H]]; [apply Hc in H; congruence|congruence|now apply IH].
Qed.

Definition drive_ok (d : str) : Prop :=
  List.length d = drive_len p /\ noslash p d /\
  (windows p = true -> nth_error d 1 = Some ":"%char).

Lemma drive_ok_abs d : drive_ok d ->
  List.length d = drive_len p /\ (windows p = true -> nth_error d 1 = Some ":"%char /\
     (forall c, nth_error d 0 = Some c -> c <> native p /\ c <> other p)).
Proof.
  intros (A&B&C). split; auto. intros W. split; auto. intros c H. apply nth_error_In in H. apply B in H.
  split; intros ->; pose proof (slash_facts p WP) as (_&_&_&Q1&Q2&_); congruence.
Qed.

Lemma absolute_shape s : absolute p s -> exists d x r, s = d ++ x :: r /\ drive_ok d /\ is_slash p x = true /\
  (windows p = false -> x = native p).
Proof.
  intros (d&r&->&LD&W&c&r'&->&HC). exists d, c, r'. split; auto. split; [|split].
  - split; auto. split.
    + destruct (windows p) eqn:WI.
      * destruct (W eq_refl) as [W1 W2]. unfold drive_len in LD. rewrite WI in LD.
        destruct d as [|a [|b [|? ?]]]; cbn in LD; try discriminate. cbn in W1. injection W1 as ->.
        destruct (W2 a eq_refl) as [Q1 Q2].
        intros x [<-|[<-|[]]].
        -- destruct (is_slash p a) eqn:E; auto. apply is_slash_iff in E. tauto.
        -- apply slash_facts; auto.
      * unfold drive_len in LD. rewrite WI in LD. destruct d; [intros x []|discriminate].
    + intros WI. now apply W.
  - apply is_slash_iff. destruct HC as [->|[_ ->]]; auto.
  - intros WI. destruct HC as [->|[Q _]]; congruence.
Qed.
Lemma absolute_make d x r : drive_ok d -> is_slash p x = true -> (windows p = false -> x = native p) -> absolute p (d ++ x :: r).
Proof.
  intros D SX W. destruct (drive_ok_abs d D) as [A B]. exists d, (x :: r). split; auto. split; auto. split; auto.
  exists x, r. split; auto. apply is_slash_iff in SX. destruct SX as [->| ->]; auto. right.
  destruct (windows p) eqn:E; auto. specialize (W eq_refl). pose proof (slash_facts p WP) as (_&_&Q&_). congruence.
Qed.

Lemma skip_drive d r : drive_ok d -> skipn (drive_len p) (d ++ r) = r /\ drive p (d ++ r) = d.
Proof.
  intros (A&_). rewrite <- A. unfold drive. rewrite <- A. split.
  - rewrite skipn_app, skipn_all, Nat.sub_diag. reflexivity.
  - rewrite firstn_app, Nat.sub_diag, firstn_all. cbn. apply app_nil_r.
Qed.

Lemma is_full_drive d x r : drive_ok d -> is_slash p x = true -> (windows p = false -> x = native p) -> is_full p (d ++ x :: r) = true.
Proof.
  intros (A&B&C) SX W. unfold is_full. unfold drive_len in A. destruct (windows p) eqn:E.
  - specialize (C eq_refl). destruct d as [|a [|b [|? ?]]]; cbn in A; try discriminate. cbn in C. injection C as ->. reflexivity.
  - destruct d; [|discriminate]. cbn. rewrite (W eq_refl). apply Ascii.eqb_refl.
Qed.

Lemma root_length d : drive_ok d -> List.length (d ++ [native p]) = root_len p.
Proof. intros (A&_). rewrite app_length, A. unfold drive_len, root_len. cbn. destruct (windows p); reflexivity. Qed.

Lemma clean_decomp s : clean p s -> nonul s -> exists d st part,
  s = d ++ native p :: render p st ++ part /\ drive_ok d /\ Forall (good p) st /\ (part = [] \/ good p part).
Proof.
  intros (AB&NO&dirs&lastc&EC&F1&F2) NZ.
  destruct (absolute_shape s AB) as (d&x&r&E&D&SX&W).
  destruct (skip_drive d (x :: r) D) as [SK _]. rewrite E, SK in EC.
  assert (NOr : ~ In (other p) (x :: r)) by (intros H; apply NO; rewrite E; apply in_app_iff; now right).
  pose proof (comps_noslash (x :: r)) as CN. rewrite EC in CN. inversion CN as [|? ? _ CN']; subst. clear CN.
  assert (EX : x :: r = native p :: render p dirs ++ lastc).
  { rewrite <- (join_comps (x :: r) NOr), EC.
    rewrite <- join_app. apply join_nil_cons. destruct dirs; discriminate. }
  exists d, dirs, lastc. rewrite EX. split; auto. split; auto.
  apply Forall_app in F2. destruct F2 as [F2 F3]. inversion F3 as [|? ? [G1 G2] _]; subst.
  apply Forall_app in CN'. destruct CN' as [N1 N2]. inversion N2; subst.
  assert (NZ' : nonul (render p dirs ++ lastc)).
  { intros H'. apply NZ. rewrite EX. apply in_app_iff. right. now right. }
  split.
  - rewrite Forall_forall in *. intros c Hc. repeat split; auto.
    + intros H0. apply NZ'. apply in_app_iff. left. unfold render. apply in_concat. exists (c ++ [native p]).
      split; [|apply in_app_iff; auto]. apply in_map_iff. exists c. auto.
    + now apply F2.
    + now apply F2.
  - destruct lastc as [|y l]; [auto|]. right. repeat split; auto; [discriminate|].
    intros H0. apply NZ'. apply in_app_iff. now right.
Qed.

Lemma decomp_clean d st part : drive_ok d -> Forall (good p) st -> (part = [] \/ good p part) ->
  clean p (d ++ native p :: render p st ++ part) /\
  location p (d ++ native p :: render p st ++ part) = (d, st ++ tailc part).
Proof.
  intros D F G. pose proof (slash_facts p WP) as (_&_&NE&SN&SO&_).
  assert (NP : noslash p part) by (destruct G as [->|G]; [intros x []|apply G]).
  destruct (skip_drive d (native p :: render p st ++ part) D) as [SK DR].
  assert (EC : components p (native p :: render p st ++ part) = [] :: st ++ [part]).
  { rewrite comp_cons_slash by auto. now rewrite comps_render by (auto using good_noslash). }
  split.
  - split; [apply absolute_make; auto|]. split.
    + intros H. apply in_app_iff in H. destruct H as [H|[H|H]].
      * destruct D as (_&ND&_). apply ND in H. congruence.
      * congruence.
      * now apply other_not_in in H.
    + exists st, part. rewrite SK. split; auto. split.
      * eapply Forall_impl; [|exact F]. intros c H. apply H.
      * apply Forall_app. split; [eapply Forall_impl; [|exact F]; intros c H; split; apply H|].
        constructor; auto. destruct G as [->|G]; [split; discriminate|]. split; apply G.
  - unfold location. rewrite DR, SK, EC. f_equal. rewrite walk_cons. cbn [go].
    clear - F G. assert (Q : forall st0, walk st0 (st ++ [part]) = st0 ++ st ++ tailc part).
    { induction F as [|c st Hc F IH]; intros st0.
      - cbn. destruct G as [->|G]; [cbn; now rewrite app_nil_r|]. rewrite (go_good p) by auto.
        destruct part; [destruct G; congruence|reflexivity].
      - cbn [app]. rewrite walk_cons, (go_good p) by auto. rewrite IH. now rewrite <- app_assoc. }
    apply (Q []).
Qed.

(** ** CleanPath *)
Lemma firstn_mod (s : str) : List.length s < N.to_nat 65536 -> firstn (N.to_nat (N.of_nat (List.length s) mod 65536)%N) s = s.
Proof. intros H. rewrite N.mod_small by lia. rewrite Nat2N.id. apply firstn_all. Qed.

Lemma loop0_plain : forall d f full src rd low, noslash p d -> nonul d -> d <> [] -> d <> [dot] -> d <> [dot; dot] ->
  (src = [] \/ exists x r, src = x :: r /\ is_slash p x = true) ->
  exists l, loop0 p (List.length d + f) full (d ++ src) rd low (native p) = loop0 p f full src (rev d ++ rd) low l /\ l <> native p.
Proof. intros d f full src rd low H1 H2 H3 H4 H5 HS. apply copy_good; auto. repeat split; auto. Qed.

(* reading the root of an absolute path *)
Lemma loop0_root d x r f : drive_ok d -> nonul d -> is_slash p x = true ->
  exists f', f' = f /\ loop0 p (List.length d + S f) true (d ++ x :: r) [] (root_len p) (native p) =
     loop0 p f true (skip_slashes p r) (rev (d ++ [native p])) (root_len p) (native p).
Proof.
  intros (A&B&C) NZ SX. exists f. split; auto. unfold drive_len in A.
  assert (ST : forall l rd, loop0 p (S f) true (x :: r) rd (root_len p) l = loop0 p f true (skip_slashes p r) (native p :: rd) (root_len p) (native p)).
  { intros l rd. cbn [loop0]. rewrite SX. cbn [skip_slashes]. now rewrite SX. }
  destruct (windows p) eqn:E.
  - specialize (C eq_refl). destruct d as [|a [|b [|? ?]]]; cbn in A; try discriminate. cbn in C. injection C as ->.
    destruct (loop0_plain [a; ":"%char] (S f) true (x :: r) [] (root_len p)) as (l&EQ&_); auto; try discriminate.
    { right. eauto. }
    rewrite EQ. rewrite ST. reflexivity.
  - destruct d; [|discriminate]. cbn [List.length Nat.add app]. rewrite ST. reflexivity.
Qed.

Lemma clean_abs wd d x r mk : drive_ok d -> is_slash p x = true -> (windows p = false -> x = native p) ->
  nonul (d ++ x :: r) -> List.length (d ++ x :: r) < N.to_nat 65536 ->
  exists st part, clean_path p wd (d ++ x :: r) mk = Some (d ++ native p :: render p st ++ part) /\
    Forall (good p) st /\ (part = [] \/ good p part) /\
    walk [] (components p r) = st ++ tailc part /\
    loop0 p (S (List.length r)) true (skip_slashes p r) (rev (d ++ [native p])) (root_len p) (native p)
      = Some (rev (d ++ native p :: render p st ++ part)).
Proof.
  intros D SX W NZ LB. pose proof (slash_facts p WP) as (_&_&NE&SN&SO&_).
  assert (NZd : nonul d) by (intros H; apply NZ; apply in_app_iff; auto).
  assert (NZr : nonul r) by (intros H; apply NZ; apply in_app_iff; right; now right).
  destruct (loop_spec p WP true (d ++ [native p]) (S (List.length r)) (skip_slashes p r) 0 []) as (k&st&part&R1&R2&R3&_&R5); auto.
  { pose proof (skip_len p r). lia. } { now apply nonul_skip. } { apply skip_head. }
  cbn [pre_of] in R1. change (render p []) with (@nil ascii) in R1. rewrite app_nil_r in R1.
  rewrite root_length in R1 by auto.
  assert (EO : (d ++ [native p]) ++ render p st ++ part = d ++ native p :: render p st ++ part) by (now rewrite <- app_assoc).
  rewrite EO in R1.
  exists st, part. split; [|split; [auto|split; [auto|split; [|exact R1]]]].
  2:{ specialize (R5 [] ltac:(auto)). rewrite !upn_nil in R5. rewrite walk_skip in R5. exact R5. }
  unfold clean_path. rewrite is_full_drive by auto. cbn [negb andb orb].
  assert (SRC : (if windows p then skip_slashes p (d ++ x :: r) else d ++ x :: r) = d ++ x :: r).
  { destruct (windows p) eqn:E; auto. apply skip_noop. destruct D as (A&B&_). unfold drive_len in A. rewrite E in A.
    destruct d; [discriminate|]. cbn. apply B. now left. }
  rewrite SRC. cbn [rev List.length].
  destruct (loop_cap (0 + List.length (d ++ x :: r)) (S (List.length (d ++ x :: r))) true (d ++ x :: r) [] (root_len p) (native p) NZ) as [LC LO].
  { right. cbn. lia. }
  cbn [Nat.add] in *. rewrite LC.
  assert (EQ : loop0 p (S (List.length (d ++ x :: r))) true (d ++ x :: r) [] (root_len p) (native p) = Some (rev (d ++ native p :: render p st ++ part))).
  { replace (S (List.length (d ++ x :: r))) with (List.length d + S (S (List.length r))) by (rewrite app_length; cbn; lia).
    destruct (loop0_root d x r (S (List.length r)) D NZd SX) as (f'&->&EE). rewrite EE. exact R1. }
  rewrite EQ, rev_involutive. f_equal. apply firstn_mod.
  destruct (LO _ EQ) as [_ LL]; [destruct d; discriminate|]. specialize (LL eq_refl). rewrite rev_length in LL. lia.
Qed.

Lemma clean_rel wd d st name : wd ++ [native p] = d ++ native p :: render p st -> drive_ok d -> Forall (good p) st -> wd <> [] ->
  is_full p name = false -> nonul name -> (windows p = false -> match name with c :: _ => is_slash p c = false | [] => True end) ->
  List.length wd + 1 + List.length name < N.to_nat 65536 ->
  exists st' part, clean_path p wd name true = Some (d ++ native p :: render p st' ++ part) /\
    Forall (good p) st' /\ (part = [] \/ good p part) /\
    walk st (components p name) = st' ++ tailc part.
Proof.
  intros EW D G NW NF NZ HS LB.
  set (src := if windows p then skip_slashes p name else name).
  assert (HH : match src with [] => True | c :: _ => is_slash p c = false end).
  { unfold src. destruct (windows p); [apply skip_head|]. specialize (HS eq_refl). destruct name; auto. }
  assert (NZs : nonul src) by (unfold src; destruct (windows p); auto; now apply nonul_skip).
  assert (LS : List.length src <= List.length name) by (unfold src; destruct (windows p); auto; apply skip_len).
  assert (CS : forall dd, walk dd (components p src) = walk dd (components p name)).
  { intros dd. unfold src. destruct (windows p); auto. apply walk_skip. }
  destruct (loop_spec p WP true (d ++ [native p]) (S (List.length src)) src 0 st) as (k&st'&part&R1&R2&R3&_&R5); auto.
  cbn [pre_of] in R1. rewrite root_length in R1 by auto.
  rewrite <- !app_assoc in R1. cbn [app] in R1. rewrite <- EW in R1.
  exists st', part. split; [|split; [auto|split; [auto|]]].
  2:{ specialize (R5 [] ltac:(auto)). rewrite !upn_nil in R5. cbn [app] in R5. now rewrite CS in R5. }
  unfold clean_path. rewrite NF. cbn [negb andb orb]. destruct wd as [|w0 wd0]; [congruence|]. fold src.
  set (wd := w0 :: wd0) in *.
  assert (LW : List.length (wd ++ [native p]) = List.length wd + 1) by (rewrite app_length; reflexivity).
  destruct (loop_cap (List.length (wd ++ [native p]) + List.length name) (S (List.length src)) true src (rev (wd ++ [native p])) (root_len p) (native p) NZs) as [LC LO].
  { right. rewrite rev_length. lia. }
  rewrite LC, R1, rev_involutive. f_equal. apply firstn_mod.
  destruct src as [|c0 s0] eqn:SQ.
  - apply (f_equal (fun o => match o with Some l => List.length l | None => 0 end)) in R1. cbn [loop0 List.length] in R1. rewrite !rev_length in R1. rewrite <- R1. rewrite LW. lia.
  - destruct (LO _ R1) as [_ LL]; [discriminate|]. specialize (LL eq_refl). rewrite rev_length in LL. lia.
Qed.

Lemma clean_fix wd s mk : clean p s -> nonul s -> List.length s < N.to_nat 65536 -> clean_path p wd s mk = Some s.
Proof.
  intros C NZ LB. destruct (clean_decomp s C NZ) as (d&st&part&E&D&G&GP). pose proof (slash_facts p WP) as (_&_&NE&SN&SO&_).
  rewrite E in NZ, LB |- *.
  destruct (clean_abs wd d (native p) (render p st ++ part) mk D SN ltac:(auto) NZ LB) as (st'&part'&EQ&_&_&_&EL).
  rewrite EQ. f_equal.
  assert (SK : skip_slashes p (render p st ++ part) = render p st ++ part).
  { apply skip_noop. destruct G as [|c st0 Hc F].
    - cbn. destruct GP as [->|(P1&P2&_)]; [exact I|]. destruct part; [congruence|]. apply P2. now left.
    - destruct Hc as (P1&P2&_). destruct c; [congruence|]. cbn. apply P2. now left. }
  rewrite SK in EL.
  pose proof (loop_clean p WP true (d ++ [native p]) st [] part (S (List.length (render p st ++ part))) G GP ltac:(lia)) as EL2.
  change (render p []) with (@nil ascii) in EL2. rewrite app_nil_r in EL2. rewrite root_length in EL2 by auto.
  rewrite EL in EL2. injection EL2 as EL2. apply (f_equal (@rev ascii)) in EL2. rewrite !rev_involutive in EL2.
  rewrite EL2. cbn [app]. now rewrite <- app_assoc.
Qed.

(** relative results *)
Lemma ups_comps k st part : Forall (noslash p) st -> noslash p part ->
  components p (ups p k ++ render p st ++ part) = repeat [dot; dot] k ++ st ++ [part].
Proof.
  intros F N. induction k as [|k IH]; [now apply comps_render|].
  unfold ups. cbn [repeat List.concat]. fold (ups p k). unfold updots.
  change (([dot; dot; native p] ++ ups p k) ++ render p st ++ part) with ([dot; dot] ++ native p :: (ups p k ++ render p st ++ part)).
  rewrite comp_app; [now rewrite IH| |apply slash_facts; auto].
  intros c [<-|[<-|[]]]; apply slash_facts; auto.
Qed.
Lemma walk_ups k b cs : walk b (repeat [dot; dot] k ++ cs) = walk (upn k b) cs.
Proof.
  revert b. induction k as [|k IH]; intros b; auto. cbn [repeat app]. rewrite walk_cons. rewrite IH. f_equal.
  clear. cbn [go dot]. revert b. induction k as [|k IH]; intros b; auto. cbn [upn]. now rewrite IH.
Qed.

Lemma clean_relative wd name : is_full p name = false -> nonul name ->
  (windows p = false -> match name with c :: _ => is_slash p c = false | [] => True end) ->
  List.length name + 1 < N.to_nat 65536 ->
  exists k st part, clean_path p wd name false = Some (ups p k ++ render p st ++ part) /\
    Forall (good p) st /\ (part = [] \/ good p part) /\
    forall b, walk b (components p (ups p k ++ render p st ++ part)) = walk b (components p name).
Proof.
  intros NF NZ HS LB.
  set (src := if windows p then skip_slashes p name else name).
  assert (HH : match src with [] => True | c :: _ => is_slash p c = false end).
  { unfold src. destruct (windows p); [apply skip_head|]. specialize (HS eq_refl). destruct name; auto. }
  assert (NZs : nonul src) by (unfold src; destruct (windows p); auto; now apply nonul_skip).
  assert (LS : List.length src <= List.length name) by (unfold src; destruct (windows p); auto; apply skip_len).
  assert (CS : forall dd, walk dd (components p src) = walk dd (components p name)).
  { intros dd. unfold src. destruct (windows p); auto. apply walk_skip. }
  destruct (loop_spec p WP false [] (S (List.length src)) src 0 []) as (k&st&part&R1&R2&R3&_&R5); auto.
  cbn [pre_of ups repeat List.concat render map app rev List.length] in R1.
  exists k, st, part. split; [|split; [auto|split; [auto|]]].
  2:{ intros b. specialize (R5 b ltac:(discriminate)). cbn [upn] in R5. rewrite app_nil_r, CS in R5. rewrite R5.
      assert (NP : noslash p part) by (destruct R3 as [->|G]; [intros x []|apply G]).
      rewrite ups_comps by (auto using good_noslash). rewrite walk_ups. generalize (upn k b) as b0. clear - R2 R3.
      induction R2 as [|c st Hc F IH]; intros st0.
      - cbn. destruct R3 as [->|G]; [cbn; now rewrite app_nil_r|]. rewrite (go_good p) by auto.
        destruct part; [destruct G; congruence|reflexivity].
      - cbn [app]. rewrite walk_cons, (go_good p) by auto. rewrite IH. now rewrite <- app_assoc. }
  unfold clean_path. rewrite NF. cbn [negb andb orb rev List.length Nat.add]. fold src.
  destruct (loop_cap (List.length name) (S (List.length src)) false src [] 0 (native p) NZs) as [LC LO].
  { right. cbn. lia. }
  rewrite LC. change (ups p 0 ++ []) with (@nil ascii) in R1. cbn [rev List.length] in R1.
  rewrite R1, rev_involutive. f_equal. apply firstn_mod.
  destruct src as [|c0 s0] eqn:SQ.
  - cbn in R1. injection R1 as R1. apply (f_equal (@List.length ascii)) in R1. rewrite !rev_length in R1. rewrite <- R1. cbn. lia.
  - destruct (LO _ R1) as [LL _]; [discriminate|]. rewrite rev_length in LL. lia.
Qed.
End P.
