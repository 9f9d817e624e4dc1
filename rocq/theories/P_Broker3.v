(** Old tokens, and what clients find, for C91. *)
From Coq Require Import String Ascii List Bool Arith NArith ZArith Lia.
From Verif Require Import M_Path M_Args M_Broker S_Broker P_Broker P_Broker2.
Import ListNotations.
Local Open Scope list_scope.
Local Open Scope Z_scope.

Section Root.
Variable root : str.

Definition hosts (w : world) : Prop := forall j, host (servers w j) = [] -> ip (servers w j) = [].

Lemma hosts_step w e : hosts w -> obeyed e -> hosts (step root w e).
Proof.
  intros HK Ho j. destruct e as [d|i c|i|i ok]; cbn [step].
  - cbn [servers]. apply HK.
  - destruct (set_availability root (clock w) c (servers w i) (folder w)) as (s' & f') eqn:E.
    cbn [servers]. unfold upd. destruct (Nat.eqb_spec j i) as [->|]; [|apply HK]. cbn [obeyed] in Ho.
    destruct (want c) eqn:Wc.
    + destruct (call_true _ _ _ _ _ _ _ E Wc Ho (HK i)) as (A1 & A2 & A3 & [(B1 & B2 & B3 & B4 & B5 & B6 & B7)|(B1 & B2 & B3 & B4 & B5)]).
      * rewrite B3, B4. apply HK.
      * congruence.
    + destruct (call_false _ _ _ _ _ _ _ E Wc Ho) as (A1 & A2 & A3 & A4 & A5 & A6 & A7 & A8). rewrite A3, A4. apply HK.
  - cbn [servers]. unfold upd. destruct (Nat.eqb_spec j i); [reflexivity|apply HK].
  - cbn [servers]. unfold upd. destruct (Nat.eqb_spec j i); [reflexivity|apply HK].
Qed.

(** A call of worker [i]: its own timer, and the files it leaves. *)
Lemma call_files w i c s' f' : hosts w -> served c ->
  set_availability root (clock w) c (servers w i) (folder w) = (s', f') ->
  t_clean s' = (if between_cleans <=? clock w - t_clean (servers w i) then clock w else t_clean (servers w i)) /\
  forall x, In x f' -> (In x (folder w) /\ (between_cleans <= clock w - t_clean (servers w i) -> clock w - snd x <= clean_older)) \/ snd x = clock w.
Proof.
  intros HK Ho E. destruct (want c) eqn:Wc.
  - destruct (call_true _ _ _ _ _ _ _ E Wc Ho (HK i)) as (A1 & A2 & A3 & [(B1 & B2 & B3 & B4 & B5 & B6 & B7)|(B1 & B2 & B3 & B4 & B5)]).
    + split; [assumption|]. intros x Hx. left. apply B7. assumption.
    + split; [assumption|]. intros x Hx. apply B5 in Hx. destruct Hx as [->|(X1 & X2 & X3 & X4)]; [right; reflexivity|left; auto].
  - destruct (call_false _ _ _ _ _ _ _ E Wc Ho) as (A1 & A2 & A3 & A4 & A5 & A6 & A7 & A8).
    split; [assumption|]. intros x Hx. left. apply A8 in Hx. tauto.
Qed.

Definition Old (j : nat) (w : world) : Prop :=
  (forall x, In x (folder w) -> snd x <= clock w) /\ t_clean (servers w j) <= clock w /\
  (between_cleans <= clock w - t_clean (servers w j) \/ forall x, In x (folder w) -> t_clean (servers w j) - clean_older <= snd x).

Lemma O_step j w e : hosts w -> obeyed e -> Old j w -> Old j (step root w e).
Proof.
  intros HK Ho (O1 & O2 & O3). destruct e as [d|i c|i|i ok]; cbn [step]; unfold Old.
  - cbn [servers clock folder]. split; [intros x Hx; specialize (O1 x Hx); lia|]. split; [lia|].
    destruct O3; [left; lia|right; assumption].
  - destruct (set_availability root (clock w) c (servers w i) (folder w)) as (s' & f') eqn:E.
    destruct (call_files _ _ _ _ _ HK Ho E) as (C1 & C2). cbn [servers clock folder]. unfold upd.
    split. { intros x Hx. destruct (C2 x Hx) as [(Hf & _)| ->]; [auto|lia]. }
    destruct (Nat.eqb_spec j i) as [->|].
    + rewrite C1. destruct (between_cleans <=? clock w - t_clean (servers w i)) eqn:B.
      * split; [lia|]. right. apply Z.leb_le in B. intros x Hx. destruct (C2 x Hx) as [(_ & Hc)| ->]; unfold clean_older in *; [specialize (Hc B); lia|lia].
      * apply Z.leb_gt in B. split; [lia|]. destruct O3 as [O3|O3]; [lia|]. right. intros x Hx.
        destruct (C2 x Hx) as [(Hf & _)| ->]; [auto|unfold clean_older; lia].
    + split; [assumption|]. destruct O3 as [O3|O3]; [left; assumption|right]. intros x Hx.
      destruct (C2 x Hx) as [(Hf & _)| ->]; [auto|unfold clean_older; lia].
  - cbn [servers clock folder]. unfold upd. split; [assumption|]. destruct (Nat.eqb_spec j i) as [->|]; [|auto].
    cbn [fresh t_clean]. unfold between_cleans. split; [lia|left; lia].
  - cbn [servers clock folder]. unfold upd.
    assert (Sub : forall x, In x (stop ok (servers w i) (folder w)) -> In x (folder w)).
    { intros x. unfold stop, remove. destruct (avail (servers w i)), ok; auto. rewrite filter_In. tauto. }
    split; [intros x Hx; auto|]. destruct (Nat.eqb_spec j i) as [->|].
    + cbn [fresh t_clean]. unfold between_cleans. split; [lia|left; lia].
    + split; [assumption|]. destruct O3 as [O3|O3]; [left; assumption|right; intros x Hx; auto].
Qed.

Lemma OH_run j t0 f h : (forall p t, In (p, t) f -> t <= t0) -> Forall obeyed h ->
  Old j (run root (start t0 f) h) /\ hosts (run root (start t0 f) h).
Proof.
  intros Hf. induction h as [|e h IH] using rev_ind; intro Ho.
  - split; [|intros k; reflexivity]. unfold Old. cbn [run fold_left start servers clock folder fresh t_clean].
    split; [intros (p & t) Hx; eapply Hf; exact Hx|]. unfold between_cleans. split; [lia|left; lia].
  - rewrite run_snoc. apply Forall_app in Ho. destruct Ho as (Ho & Ho1). inversion Ho1; subst.
    destruct (IH Ho) as (I1 & I2). split; [apply O_step|apply hosts_step]; auto.
Qed.

Lemma orphans j t0 f h c : (forall p t, In (p, t) f -> t <= t0) -> Forall obeyed (h ++ [Call j c]) ->
  let w := run root (start t0 f) (h ++ [Call j c]) in
  forall p t, In (p, t) (folder w) -> clock w - 129600 < t <= clock w.
Proof.
  intros Hf Ho w p t Hi. destruct (OH_run j t0 f _ Hf Ho) as ((O1 & O2 & O3) & _). fold w in O1, O2, O3.
  split; [|apply (O1 _ Hi)].
  assert (T : clock w - t_clean (servers w j) < between_cleans).
  { apply Forall_app in Ho. destruct Ho as (Ho & Ho1). inversion Ho1; subst. cbn [obeyed] in H1.
    destruct (OH_run j t0 f _ Hf Ho) as (_ & HK). unfold w. rewrite run_snoc. cbn [step].
    destruct (set_availability _ _ _ _ _) as (s' & f') eqn:E. destruct (call_files _ _ _ _ _ HK H1 E) as (C1 & _).
    cbn [servers clock]. unfold upd. rewrite Nat.eqb_refl, C1.
    destruct (between_cleans <=? _) eqn:B; [unfold between_cleans; lia|apply Z.leb_gt in B; exact B]. }
  unfold between_cleans, clean_older in *. destruct O3 as [O3|O3]; [lia|]. specialize (O3 _ Hi). cbn [snd] in O3. lia.
Qed.
End Root.

(** *** The client *)
Lemma after_none s cur : ~ In "/"%char s -> after_slash cur s = cur.
Proof.
  revert cur. induction s as [|c s IH]; intros cur H; [reflexivity|]. cbn [after_slash].
  destruct (Ascii.eqb_spec c "/"%char) as [->|]; [exfalso; apply H; left; reflexivity|]. apply IH. intro X. apply H. right. exact X.
Qed.
Lemma after_some a n cur : ~ In "/"%char n -> after_slash cur (a ++ "/"%char :: n) = Some n.
Proof.
  intro H. revert cur. induction a as [|c a IH]; intro cur; cbn [app after_slash].
  - rewrite Ascii.eqb_refl. apply after_none. assumption.
  - destruct (Ascii.eqb c "/"); apply IH.
Qed.

Lemma mine_eq mine n : existsb (str_eqb n) mine = negb (not_mine mine n).
Proof.
  unfold not_mine. destruct (in_dec (list_eq_dec ascii_dec) n mine) as [H|H]; cbn [negb].
  - apply existsb_exists. exists n. split; [assumption|]. apply str_eqb_eq. reflexivity.
  - destruct (existsb (str_eqb n) mine) eqn:E; [|reflexivity]. apply existsb_exists in E. destruct E as (m & Hm & He).
    apply str_eqb_eq in He. subst. tauto.
Qed.

Lemma names_spec mine l : (forall r n, In (r, n) l -> ~ In "/"%char n) ->
  names mine (map (fun x => (fst x ++ L "/main/22.linux/") ++ snd x) l) = Some (filter (not_mine mine) (map snd l)).
Proof.
  induction l as [|(r & n) l IH]; intro H; [reflexivity|]. cbn [map names fst snd].
  replace ((r ++ L "/main/22.linux/") ++ n) with ((r ++ L "/main/22.linux") ++ "/"%char :: n) by (rewrite <- !app_assoc; reflexivity).
  rewrite after_some by (apply (H r n); left; reflexivity).
  rewrite IH by (intros r' n' Hi; apply (H r' n'); right; exact Hi).
  rewrite mine_eq. cbn [filter]. destruct (not_mine mine n); reflexivity.
Qed.

Lemma pieces_none s cur : ~ In ";"%char s -> pieces cur s = [rev cur ++ s].
Proof.
  revert cur. induction s as [|c s IH]; intros cur H; cbn [pieces]; [rewrite app_nil_r; reflexivity|].
  destruct (Ascii.eqb_spec c ";"%char) as [->|]; [exfalso; apply H; left; reflexivity|].
  rewrite IH by (intro X; apply H; right; exact X). cbn [rev]. rewrite <- app_assoc. reflexivity.
Qed.
Lemma pieces_some s r cur : ~ In ";"%char s -> pieces cur (s ++ ";"%char :: r) = (rev cur ++ s) :: pieces [] r.
Proof.
  revert cur. induction s as [|c s IH]; intros cur H; cbn [app pieces].
  - rewrite Ascii.eqb_refl, app_nil_r. reflexivity.
  - destruct (Ascii.eqb_spec c ";"%char) as [->|]; [exfalso; apply H; left; reflexivity|].
    rewrite IH by (intro X; apply H; right; exact X). cbn [rev]. rewrite <- app_assoc. reflexivity.
Qed.
Lemma pieces_semi l : l <> [] -> Forall (fun s => ~ In ";"%char s) l -> pieces [] (semicolons l) = l.
Proof.
  induction l as [|s l IH]; intros Hn H; [congruence|]. inversion H; subst. destruct l as [|s2 l].
  - cbn [semicolons]. apply pieces_none. assumption.
  - change (semicolons (s :: s2 :: l)) with (s ++ ";"%char :: semicolons (s2 :: l)).
    rewrite pieces_some by assumption. rewrite IH by (auto; congruence). reflexivity.
Qed.

Lemma drop_spaces_pad n s : drop_spaces (spaces n ++ s) = drop_spaces s.
Proof. induction n as [|n IH]; [reflexivity|]. exact IH. Qed.
Lemma drop_spaces_id s : (forall r, s <> " "%char :: r) -> drop_spaces s = s.
Proof. destruct s as [|c s]; intro H; [reflexivity|]. cbn [drop_spaces]. destruct (Ascii.eqb_spec c " "%char) as [->|]; [exfalso; exact (H s eq_refl)|reflexivity]. Qed.
Lemma rev_spaces n : rev (spaces n) = spaces n.
Proof.
  induction n as [|n IH]; [reflexivity|]. unfold spaces in *. cbn [repeat rev]. rewrite IH. clear IH.
  induction n as [|n IH]; [reflexivity|]. cbn [repeat app]. rewrite IH. reflexivity.
Qed.
Lemma trim_pad a p b : path_text p -> trim (spaces a ++ p ++ spaces b) = p.
Proof.
  intros (_ & Hn & H1 & H2). unfold trim. rewrite drop_spaces_pad.
  rewrite (drop_spaces_id (p ++ spaces b)).
  - rewrite rev_app_distr, rev_spaces, drop_spaces_pad, drop_spaces_id, rev_involutive; [reflexivity|].
    intros r E. apply (H2 (rev r)). rewrite <- (rev_involutive p), E. reflexivity.
  - intros r E. destruct p as [|c p]; [congruence|]. cbn [app] in E. injection E as -> _. exact (H1 p eq_refl).
Qed.

Lemma in_spaces c n : In c (spaces n) -> c = " "%char.
Proof. intro H. apply repeat_spec in H. exact H. Qed.
Lemma roots_spec l : l <> [] -> Forall (fun x => path_text (snd (fst x))) l ->
  roots (semicolons (map pad l)) = map (fun x => snd (fst x) ++ L "/main/22.linux/") l.
Proof.
  intros Hn H. unfold roots. rewrite pieces_semi.
  - rewrite map_map. apply map_ext_in. intros ((a & p) & b) Hi. rewrite Forall_forall in H. specialize (H _ Hi). cbn [fst snd] in *.
    unfold pad. rewrite trim_pad by assumption. reflexivity.
  - destruct l; [congruence|discriminate].
  - apply Forall_map, Forall_forall. intros ((a & p) & b) Hi. rewrite Forall_forall in H. specialize (H _ Hi). cbn [fst snd] in *.
    unfold pad. rewrite !in_app_iff. destruct H as (H & _). intros [X|[X|X]]; [apply in_spaces in X; discriminate|tauto|apply in_spaces in X; discriminate].
Qed.

(** FASTBUILD_WORKERS *)
Lemma tok_some a s : ~ In (ascii_of_nat 34) s -> ~ In ";"%char s -> tok ";" (Some a) false s = [rev a ++ s].
Proof.
  revert a. induction s as [|c s IH]; intros a H1 H2; cbn [tok]; [rewrite app_nil_r; reflexivity|].
  assert (X : tok ";" (Some (c :: a)) false s = [rev a ++ c :: s]).
  { rewrite IH; [cbn [rev]; rewrite <- app_assoc; reflexivity| |]; intro X; [apply H1|apply H2]; right; exact X. }
  destruct (Ascii.eqb_spec c quote) as [->|]; [exfalso; apply H1; left; reflexivity|].
  destruct (Ascii.eqb_spec c bslash) as [->|].
  - destruct s as [|d s]; [exact X|]. destruct (Ascii.eqb_spec d quote) as [->|]; [exfalso; apply H1; right; left; reflexivity|exact X].
  - destruct (Ascii.eqb_spec c ";"%char) as [->|]; [exfalso; apply H2; left; reflexivity|]. exact X.
Qed.
Lemma tok_some2 a s r : ~ In (ascii_of_nat 34) s -> ~ In ";"%char s ->
  tok ";" (Some a) false (s ++ ";"%char :: r) = (rev a ++ s) :: tok ";" None false r.
Proof.
  revert a. induction s as [|c s IH]; intros a H1 H2; [cbn; rewrite app_nil_r; reflexivity|]. cbn [app tok].
  assert (X : tok ";" (Some (c :: a)) false (s ++ ";"%char :: r) = (rev a ++ c :: s) :: tok ";" None false r).
  { rewrite IH; [cbn [rev]; rewrite <- app_assoc; reflexivity| |]; intro X; [apply H1|apply H2]; right; exact X. }
  destruct (Ascii.eqb_spec c quote) as [->|]; [exfalso; apply H1; left; reflexivity|].
  destruct (Ascii.eqb_spec c bslash) as [->|].
  - destruct s as [|d s]; [exact X|]. cbn [app] in X |- *. destruct (Ascii.eqb_spec d quote) as [->|]; [exfalso; apply H1; right; left; reflexivity|exact X].
  - destruct (Ascii.eqb_spec c ";"%char) as [->|]; [exfalso; apply H2; left; reflexivity|]. exact X.
Qed.
Lemma tok_first c s : c <> quote -> c <> ";"%char -> (forall d r, s = d :: r -> d <> quote) ->
  tok ";" None false (c :: s) = tok ";" (Some [c]) false s.
Proof.
  intros H1 H2 H3. cbn [tok]. destruct (Ascii.eqb_spec c ";"%char); [congruence|]. destruct (Ascii.eqb_spec c quote); [congruence|].
  destruct (Ascii.eqb_spec c bslash); [|reflexivity]. destruct s as [|d s]; [reflexivity|].
  destruct (Ascii.eqb_spec d quote) as [->|]; [exfalso; exact (H3 _ _ eq_refl eq_refl)|reflexivity].
Qed.
Lemma tokenize_names l : Forall plain_name l -> tokenize ";" (semicolons l) = filter not_empty l.
Proof.
  unfold tokenize. induction l as [|s l IH]; intro H; [reflexivity|]. inversion H as [|? ? (P1 & P2) Hl]; subst.
  destruct s as [|c s].
  - destruct l as [|s2 l]; [reflexivity|]. change (filter not_empty ([] :: s2 :: l)) with (filter not_empty (s2 :: l)). rewrite <- (IH Hl). reflexivity.
  - assert (Hc : c <> quote /\ c <> ";"%char) by (split; intros ->; [apply P2|apply P1]; left; reflexivity).
    destruct l as [|s2 l].
    + cbn [semicolons filter not_empty]. rewrite tok_first; [|tauto|tauto|].
      * rewrite tok_some; [reflexivity| |]; intro X; [apply P2|apply P1]; right; exact X.
      * intros d r -> ->. apply P2. right. left. reflexivity.
    + change (semicolons ((c :: s) :: s2 :: l)) with (c :: (s ++ ";"%char :: semicolons (s2 :: l))).
      rewrite tok_first; [|tauto|tauto|].
      * rewrite tok_some2; [|intro X; apply P2; right; exact X|intro X; apply P1; right; exact X].
        rewrite (IH Hl). reflexivity.
      * intros d r E ->. destruct s as [|d s]; cbn [app] in E; [discriminate|]. injection E as -> _. apply P2. right. left. reflexivity.
Qed.

Lemma client ws l (listing : str -> list str) mine :
  Forall plain_name ws -> l <> [] -> Forall (fun x => path_text (snd (fst x))) l ->
  (forall r n, In n (listing r) -> ~ In "/"%char n) ->
  find_workers (Some (semicolons ws)) (Some (semicolons (map pad l))) (fun r => map (fun n => r ++ n) (listing r)) mine =
  Some (match filter not_empty ws with
        | [] => filter (not_mine mine) (flat_map (fun x => listing (snd (fst x) ++ L "/main/22.linux/")) l)
        | given => given
        end).
Proof.
  intros Hw Hn Hl Hs. unfold find_workers. rewrite tokenize_names by assumption.
  destruct (filter not_empty ws) eqn:E; [|reflexivity].
  rewrite roots_spec by assumption.
  set (rs := flat_map (fun x => map (fun n => (snd (fst x), n)) (listing (snd (fst x) ++ L "/main/22.linux/"))) l).
  assert (E1 : flat_map (fun r => map (fun n => r ++ n) (listing r)) (map (fun x => snd (fst x) ++ L "/main/22.linux/") l) =
               map (fun x => (fst x ++ L "/main/22.linux/") ++ snd x) rs).
  { unfold rs. clear. induction l as [|x l IH]; [reflexivity|]. cbn [map flat_map]. rewrite map_app, IH, map_map. reflexivity. }
  assert (E2 : flat_map (fun x => listing (snd (fst x) ++ L "/main/22.linux/")) l = map snd rs).
  { unfold rs. clear. induction l as [|x l IH]; [reflexivity|]. cbn [map flat_map]. rewrite map_app, IH, map_map. cbn [snd]. rewrite map_id. reflexivity. }
  transitivity (Some (filter (not_mine mine) (map snd rs))); [|exact (f_equal (fun z => Some (filter (not_mine mine) z)) (eq_sym E2))].
  etransitivity; [exact (f_equal (names mine) E1)|].
  apply names_spec. intros r n Hi. unfold rs in Hi. apply in_flat_map in Hi. destruct Hi as (x & _ & Hi).
  apply in_map_iff in Hi. destruct Hi as (m & Em & Hm). injection Em as _ ->. eapply Hs. exact Hm.
Qed.
